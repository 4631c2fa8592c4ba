(** C74: the oscillators of the Kuramoto example: order parameter, constraint, drift, frequencies. *)
From Coq Require Import String List ZArith Reals Lia Lra Bool.
From Verif Require Import Base.Num Base.Py Base.Arr Lib.ArrLemmas Model.Ext Model.DPFC Model.Kuramoto.
From Verif Require Import Spec.FlowSpec Spec.RealSpec Spec.TotalSpec Spec.OscSpec Lib.RBase Lib.RSum Lib.StepLemmas.
Import ListNotations.
Local Open Scope R_scope.

Lemma same_phase_refl a : same_phase a a.
Proof. exists 0%Z. rewrite Rmult_0_r. ring. Qed.
Lemma sin_IZR x z : sin (x + 2 * PI * IZR z) = sin x.
Proof.
  destruct z as [|p|p].
  - f_equal. simpl. ring.
  - rewrite <- (sin_period x (Pos.to_nat p)). f_equal. rewrite INR_IZR_INZ, positive_nat_Z. ring.
  - rewrite <- (sin_period (x + 2 * PI * IZR (Z.neg p)) (Pos.to_nat p)). f_equal. rewrite INR_IZR_INZ, positive_nat_Z.
    change (Z.neg p) with (- Z.pos p)%Z. rewrite opp_IZR. ring.
Qed.
Lemma cos_IZR x z : cos (x + 2 * PI * IZR z) = cos x.
Proof. rewrite !cos_sin. rewrite <- (sin_IZR (PI / 2 + x) z). f_equal. ring. Qed.
Lemma cos_1 d : cos d = 1 -> exists z, d = 2 * PI * IZR z.
Proof.
  intro H. pose proof (cos_2a_sin (d / 2)) as Q. replace (2 * (d / 2)) with d in Q by lra. rewrite H in Q.
  assert (S0 : sin (d / 2) = 0) by nra. apply sin_eq_0_0 in S0. destruct S0 as (k & Hk). exists k. lra.
Qed.

(** x % (2*np.pi) *)
Definition mod2pi (x : R) : R := x - 2 * PI * IZR (Int_part (x / (2 * PI))).
Lemma mod2pi_wraps : wraps mod2pi.
Proof.
  intro x. pose proof PI_RGT_0 as P. destruct (base_Int_part (x / (2 * PI))) as (H1 & H2). unfold mod2pi. set (f := IZR (Int_part (x / (2 * PI)))) in *.
  assert (Q : x = 2 * PI * (x / (2 * PI))) by (field; lra). set (q := x / (2 * PI)) in *. split; [nra|].
  exists (- Int_part (x / (2 * PI)))%Z. rewrite opp_IZR. fold q f. subst f. unfold q. ring.
Qed.

Section Order.
  Context (n : nat) (Hn : (1 <= n)%nat).
  Lemma nR : 0 < INR n. Proof. apply lt_0_INR. lia. Qed.

  Lemma order_sq x : order_parameter n x ^ 2 = sumn n (fun i => sumn n (fun j => cos (x i - x j))) / INR n ^ 2.
  Proof.
    pose proof nR. unfold order_parameter. match goal with |- (?s / _) ^ 2 = _ => replace ((s / INR n) ^ 2) with (s ^ 2 / INR n ^ 2) by (field; lra) end. f_equal. rewrite pow2_sqrt by nra.
    rewrite <- !Rsqr_pow2. unfold Rsqr. rewrite !sumn_sq, <- sumn_plus. apply sumn_ext. intros i _. rewrite <- sumn_plus. apply sumn_ext. intros j _.
    rewrite cos_minus. ring.
  Qed.
  Lemma order_ge0 x : 0 <= order_parameter n x.
  Proof. pose proof nR. unfold order_parameter. apply Rmult_le_pos; [apply sqrt_pos|]. left. now apply Rinv_0_lt_compat. Qed.
  Lemma double_le x : sumn n (fun i => sumn n (fun j => cos (x i - x j))) <= INR n ^ 2.
  Proof.
    rewrite <- (Rmult_1_r (INR n ^ 2)). replace (INR n ^ 2 * 1) with (sumn n (fun _ => sumn n (fun _ => 1))) by (rewrite !sumn_const; ring).
    apply sumn_le. intros i _. apply sumn_le. intros j _. apply COS_bound.
  Qed.
  Theorem order_le1 x : order_parameter n x <= 1.
  Proof.
    pose proof nR. pose proof (order_ge0 x). assert (order_parameter n x ^ 2 <= 1); [|nra]. rewrite order_sq. pose proof (double_le x).
    apply (Rmult_le_reg_r (INR n ^ 2)); [nra|]. unfold Rdiv. rewrite Rmult_assoc, Rinv_l by nra. nra.
  Qed.
  Theorem order_1_iff x : order_parameter n x = 1 <-> forall i j, (i < n)%nat -> (j < n)%nat -> same_phase (x i) (x j).
  Proof.
    pose proof nR as P. split.
    - intros H i j Hi Hj. apply cos_1. assert (Q : order_parameter n x ^ 2 = 1) by (rewrite H; ring). rewrite order_sq in Q.
      assert (D : sumn n (fun i => sumn n (fun j => 1 - cos (x i - x j))) = 0).
      { rewrite (sumn_ext n _ (fun i => INR n - sumn n (fun j => cos (x i - x j)))) by (intros; rewrite sumn_minus, sumn_const; ring).
        rewrite sumn_minus, sumn_const. apply (Rmult_eq_compat_r (INR n ^ 2)) in Q. unfold Rdiv in Q. rewrite Rmult_assoc, Rinv_l in Q by nra. lra. }
      assert (Hnn : forall i j, 0 <= 1 - cos (x i - x j)) by (intros a b; pose proof (COS_bound (x a - x b)); lra).
      pose proof (sumn_0_inv n _ (fun a _ => sumn_ge0 n _ (fun b _ => Hnn a b)) D i Hi) as D1. cbv beta in D1.
      pose proof (sumn_0_inv n _ (fun b _ => Hnn i b) D1 j Hj) as D2. cbv beta in D2. lra.
    - intro H. assert (Q : order_parameter n x ^ 2 = 1).
      { rewrite order_sq. rewrite (sumn_ext n _ (fun _ => sumn n (fun _ => 1))).
        - rewrite !sumn_const. field. lra.
        - intros i Hi. apply sumn_ext. intros j Hj. destruct (H i j Hi Hj) as (z & ->). rewrite <- cos_0, <- (cos_IZR 0 z). f_equal. ring. }
      pose proof (order_ge0 x). nra.
  Qed.
  Theorem order_phase x y c : (forall i, (i < n)%nat -> same_phase (y i) (x i + c)) -> order_parameter n y = order_parameter n x.
  Proof.
    intro H. pose proof (order_ge0 x). pose proof (order_ge0 y). apply Rsqr_inj; auto. rewrite !Rsqr_pow2, !order_sq. f_equal.
    apply sumn_ext. intros i Hi. apply sumn_ext. intros j Hj. destruct (H i Hi) as (a & Ha). destruct (H j Hj) as (b & Hb).
    replace (y i - y j) with (x i - x j + 2 * PI * IZR (a - b)) by (rewrite minus_IZR; lra). apply cos_IZR.
  Qed.
End Order.

(** ** the code's order parameter *)
Lemma map_nth_seq {A B} (f : A -> B) (l : list A) d : map f l = map (fun i => f (nth i l d)) (seq 0 (List.length l)).
Proof.
  induction l; cbn [map List.length seq]; [reflexivity|]. f_equal. rewrite <- seq_shift, map_map. exact IHl.
Qed.
(** R_t(x): the modulus of the mean phase factor of the oscillators; the global dim of the script is their number *)
Theorem C74_order_parameter (x : list R) : kur_R (List.length x) x = order_parameter (List.length x) (fun i => nth i x 0).
Proof.
  unfold kur_R, order_parameter. rewrite nofnat_R, !(map_nth_seq _ x 0), !nsum_seq. unfold nsq. cbn. unfold Rdiv. rewrite Rmult_1_l, Rmult_comm. f_equal.
  f_equal. ring.
Qed.
(** it lies between 0 and 1, is 1 exactly for a synchronised population, and depends only on phase differences modulo 2 pi *)
Theorem C74_order_range (x : list R) : x <> [] -> 0 <= kur_R (List.length x) x <= 1.
Proof.
  intro H. assert (1 <= List.length x)%nat by (destruct x; [congruence|cbn; lia]). rewrite C74_order_parameter. split; [now apply order_ge0|now apply order_le1].
Qed.
Theorem C74_synchronised (x : list R) : x <> [] ->
  (kur_R (List.length x) x = 1 <-> forall i j, (i < List.length x)%nat -> (j < List.length x)%nat -> same_phase (nth i x 0) (nth j x 0)).
Proof.
  intro H. assert (1 <= List.length x)%nat by (destruct x; [congruence|cbn; lia]). rewrite C74_order_parameter. now apply order_1_iff.
Qed.
Theorem C74_order_invariant (x y : list R) c : List.length y = List.length x ->
  (forall i, (i < List.length x)%nat -> same_phase (nth i y 0) (nth i x 0 + c)) -> kur_R (List.length y) y = kur_R (List.length x) x.
Proof.
  intros L H. destruct x as [|a x]; [destruct y; [reflexivity|discriminate]|]. rewrite !C74_order_parameter, L. apply (order_phase (List.length (a :: x))) with c; [cbn; lia|exact H].
Qed.

(** ** the constraint U: one exponent per particle, the order parameter minus one *)
Definition U_at (u : mat R) (m : nat) : R := elem u 0 m.
Theorem C74_constraint (x : mat R) : (1 <= mr x)%nat -> exists u, kur_U (mr x) x = Ok u /\ mr u = 1%nat /\ mc u = mc x /\
  forall m, (m < mc x)%nat -> U_at u m = order_parameter (mr x) (fun i => get x i m) - 1 /\ -1 <= U_at u m <= 0.
Proof.
  intro H. eexists. split; [reflexivity|]. split; [reflexivity|]. split; [reflexivity|]. intros m Hm.
  assert (Q : U_at (mk 1 (mc x) (fun _ n => nmul (nopp none1) (nsub none1 (kur_R (mr x) (col x n))))) m = order_parameter (mr x) (fun i => get x i m) - 1).
  { unfold U_at. match goal with |- elem ?A 0 ?j = _ => change (elem A 0 j) with (bget A 0 j) end. rewrite bget_mk by lia.
    pose proof (C74_order_parameter (col x m)) as C. rewrite col_length in C. rewrite C.
    replace (order_parameter (mr x) (fun i => nth i (col x m) 0)) with (order_parameter (mr x) (fun i => get x i m)); [cbn; ring|].
    unfold order_parameter. f_equal. f_equal. f_equal; f_equal; apply sumn_ext; intros i Hi; now rewrite nth_col by auto. }
  split; [exact Q|]. rewrite Q. pose proof (order_ge0 (mr x) H (fun i => get x i m)). pose proof (order_le1 (mr x) H (fun i => get x i m)). lra.
Qed.
(** the normalised weights of one reweighting: between 1/(e N) and e/N, whatever the ensemble -- and whatever the time step *)
Theorem C74_weights (x u : mat R) : (1 <= mr x)%nat -> (1 <= mc x)%nat -> kur_U (mr x) x = Ok u ->
  forall m, (m < mc x)%nat ->
    exp (-1) / INR (mc x) <= exp (U_at u m) / sumn (mc x) (fun i => exp (U_at u i)) <= exp 1 / INR (mc x).
Proof.
  intros Hd HN Hu m Hm. destruct (C74_constraint x Hd) as (u' & Hu' & _ & _ & H). rewrite Hu in Hu'. injection Hu' as <-.
  assert (B : forall i, (i < mc x)%nat -> exp (-1) <= exp (U_at u i) <= 1).
  { intros i Hi. destruct (H i Hi) as (_ & H1 & H2). rewrite <- exp_0. split.
    - destruct H1 as [H1|H1]; [left; now apply exp_increasing|right; now rewrite H1].
    - destruct H2 as [H2|H2]; [left; now apply exp_increasing|right; now rewrite H2]. }
  assert (PN : 0 < INR (mc x)) by (apply lt_0_INR; lia).
  assert (S1 : sumn (mc x) (fun i => exp (U_at u i)) <= INR (mc x)).
  { rewrite <- (Rmult_1_r (INR (mc x))), <- sumn_const. apply sumn_le. intros i Hi. now apply B. }
  assert (S2 : INR (mc x) * exp (-1) <= sumn (mc x) (fun i => exp (U_at u i))).
  { rewrite <- sumn_const. apply sumn_le. intros i Hi. now apply B. }
  pose proof (exp_pos (-1)) as P1. pose proof (B m Hm) as (B1 & B2). pose proof (exp_pos (U_at u m)) as P2.
  assert (PS : 0 < sumn (mc x) (fun i => exp (U_at u i))) by (apply Rlt_le_trans with (INR (mc x) * exp (-1)); [now apply Rmult_lt_0_compat|auto]).
  assert (E1 : exp 1 * exp (-1) = 1) by (rewrite <- exp_plus; replace (1 + -1) with 0 by lra; apply exp_0).
  set (N := INR (mc x)) in *. set (W := sumn (mc x) (fun i => exp (U_at u i))) in *. set (w := exp (U_at u m)) in *. set (e := exp 1) in *. set (q := exp (-1)) in *.
  split; apply (Rmult_le_reg_r (N * W)); try nra.
  - replace (q / N * (N * W)) with (q * W) by (field; lra). replace (w / W * (N * W)) with (w * N) by (field; lra). nra.
  - replace (e / N * (N * W)) with (e * W) by (field; lra). replace (w / W * (N * W)) with (w * N) by (field; lra).
    assert (e * (N * q) <= e * W) by (apply Rmult_le_compat_l; [unfold e; left; apply exp_pos|auto]). nra.
Qed.

(** ** the drift *)
(** f(x, t) is the Kuramoto vector field, particle by particle *)
Theorem C74_drift K (ws : list R) (x : mat R) t : mr x = List.length ws -> exists F, kur_f K ws x t = Ok F /\ mr F = mr x /\ mc F = mc x /\
  forall d m, (d < mr x)%nat -> (m < mc x)%nat -> get F d m = kuramoto (mr x) K (fun i => nth i ws 0) (fun i => get x i m) d.
Proof.
  intro H. unfold kur_f. rewrite H, Nat.eqb_refl. eexists. split; [reflexivity|]. split; [reflexivity|]. split; [reflexivity|]. intros d m Hd Hm.
  rewrite get_mk by auto. unfold kur_point. rewrite nth_map_seq by auto. rewrite col_length, nsum_seq, nofnat_R, H. unfold kuramoto. cbn. f_equal. f_equal.
  apply sumn_ext. intros i Hi. rewrite !nth_col by lia. rewrite <- sin_neg. f_equal. ring.
Qed.
Theorem C74_drift_wrong_size K (ws : list R) (x : mat R) t : mr x <> List.length ws -> kur_f K ws x t = Err ValueError.
Proof. intro H. unfold kur_f. destruct (Nat.eqb_spec (mr x) (List.length ws)); [contradiction|reflexivity]. Qed.

Section Field.
  Context (n : nat) (Hn : (1 <= n)%nat) (K : R) (w : nat -> R).
  Lemma polar a b : exists psi, a = sqrt (a ^ 2 + b ^ 2) * cos psi /\ b = sqrt (a ^ 2 + b ^ 2) * sin psi.
  Proof.
    set (r := sqrt (a ^ 2 + b ^ 2)). assert (Hr : r ^ 2 = a ^ 2 + b ^ 2) by (apply pow2_sqrt; nra). assert (R0 : 0 <= r) by apply sqrt_pos.
    destruct (Req_dec r 0) as [Z|NZ]. { exists 0. rewrite Z. split; nra. }
    assert (Hx : -1 <= a / r <= 1).
    { split; apply (Rmult_le_reg_r r); try lra; unfold Rdiv; rewrite Rmult_assoc, Rinv_l by auto; nra. }
    assert (HS : sqrt (1 - (a / r)²) = Rabs b / r).
    { replace (1 - (a / r)²) with ((Rabs b / r) ^ 2). { apply sqrt_pow2. apply Rmult_le_pos; [apply Rabs_pos|left; apply Rinv_0_lt_compat; lra]. }
      unfold Rsqr. assert (Rabs b ^ 2 = b ^ 2) by (unfold Rabs; destruct (Rcase_abs b); ring).
      replace ((Rabs b / r) ^ 2) with (Rabs b ^ 2 / r ^ 2) by (field; auto). rewrite H. replace (b ^ 2) with (r ^ 2 - a ^ 2) by lra. field. auto. }
    destruct (Rle_dec 0 b) as [Hb|Hb].
    - exists (acos (a / r)). rewrite cos_acos, sin_acos, HS by auto. rewrite Rabs_right by lra. split; field; auto.
    - exists (- acos (a / r)). rewrite cos_neg, sin_neg, cos_acos, sin_acos, HS by auto. rewrite Rabs_left by lra. split; field; auto.
  Qed.
  (** mean-field form: every oscillator is pulled towards the mean phase, with strength K times the order parameter *)
  Theorem C74_mean_field x : exists psi,
    sumn n (fun i => cos (x i)) = INR n * order_parameter n x * cos psi /\ sumn n (fun i => sin (x i)) = INR n * order_parameter n x * sin psi /\
    forall j, kuramoto n K w x j = w j + K * order_parameter n x * sin (psi - x j).
  Proof.
    pose proof (nR n Hn). destruct (polar (sumn n (fun i => cos (x i))) (sumn n (fun i => sin (x i)))) as (psi & P1 & P2).
    assert (Q : forall c, INR n * order_parameter n x * c = sqrt (sumn n (fun i => cos (x i)) ^ 2 + sumn n (fun i => sin (x i)) ^ 2) * c).
    { intro c. unfold order_parameter. field. lra. }
    exists psi. rewrite !Q. split; [exact P1|]. split; [exact P2|]. rewrite <- Q in P1, P2. intro j. unfold kuramoto. f_equal.
    rewrite (sumn_ext n _ (fun i => cos (x j) * sin (x i) + - sin (x j) * cos (x i))) by (intros; rewrite sin_minus; ring).
    rewrite sumn_lin, P1, P2, sin_minus. field. lra.
  Qed.
  (** the interaction moves no mean phase *)
  Theorem C74_coupling_cancels x : sumn n (kuramoto n K w x) = sumn n w.
  Proof.
    unfold kuramoto. rewrite sumn_plus, sumn_scal.
    assert (Q : sumn n (fun j => sumn n (fun i => sin (x i - x j))) = 0).
    { set (A := sumn n (fun j => sumn n (fun i => sin (x i - x j)))). assert (A = - A); [|lra]. unfold A at 1. rewrite sumn_swap. unfold A.
      rewrite <- sumn_opp. apply sumn_ext. intros i Hi. rewrite <- sumn_opp. apply sumn_ext. intros j Hj. rewrite <- sin_neg. f_equal. ring. }
    rewrite Q. ring.
  Qed.
  (** only phase differences modulo 2 pi matter *)
  Theorem C74_drift_invariant x y c j : (forall i, (i < n)%nat -> same_phase (y i) (x i + c)) -> (j < n)%nat -> kuramoto n K w y j = kuramoto n K w x j.
  Proof.
    intros H Hj. unfold kuramoto. f_equal. f_equal. apply sumn_ext. intros i Hi. destruct (H i Hi) as (a & Ha). destruct (H j Hj) as (b & Hb).
    replace (y i - y j) with (x i - x j + 2 * PI * IZR (a - b)) by (rewrite minus_IZR; lra). apply sin_IZR.
  Qed.
  (** identical oscillators: the synchronised state is at rest in the rotating frame *)
  Theorem C74_synchronised_rest x j : (forall i j, (i < n)%nat -> (j < n)%nat -> same_phase (x i) (x j)) -> (j < n)%nat -> kuramoto n K w x j = w j.
  Proof.
    intros H Hj. unfold kuramoto. rewrite sumn_0; [ring|]. intros i Hi. destruct (H i j Hi Hj) as (z & ->). rewrite <- sin_0, <- (sin_IZR 0 z). f_equal. ring.
  Qed.
End Field.

(** ** the natural frequencies: the first round(dim/2) are freq, the others -freq; they cancel exactly when the number is even *)
Definition kur_rounds (n : nat) : Prop := (2 * kur_half n = n \/ 2 * kur_half n = n + 1 \/ 2 * kur_half n + 1 = n)%nat /\ (Nat.even n = false -> Nat.even (kur_half n) = true).
Lemma half_rounds n : kur_rounds n.
Proof.
  unfold kur_rounds, kur_half. pose proof (Nat.div2_odd n) as Q. rewrite <- Nat.negb_even in Q. destruct (Nat.even n) eqn:Ev; cbn [negb Nat.b2n] in Q.
  - split; [lia|discriminate].
  - destruct (Nat.even (Nat.div2 n)) eqn:E2; (split; [lia|intros _]); auto. rewrite Nat.even_succ. now rewrite <- Nat.negb_even, E2.
Qed.
Theorem C74_frequencies dim freq : List.length (kur_ws dim freq) = dim /\
  (forall i, (i < dim)%nat -> nth i (kur_ws dim freq) 0 = if (i <? kur_half dim)%nat then freq else - freq) /\
  (forall i, kur_rounds i) /\
  sumn dim (fun i => nth i (kur_ws dim freq) 0) = (2 * INR (kur_half dim) - INR dim) * freq.
Proof.
  assert (H : forall i, (i < dim)%nat -> nth i (kur_ws dim freq) 0 = if (i <? kur_half dim)%nat then freq else - freq).
  { intros i Hi. unfold kur_ws. now rewrite nth_map_seq by auto. }
  split; [unfold kur_ws; now rewrite map_length, seq_length|]. split; [auto|]. split; [apply half_rounds|].
  rewrite (sumn_ext _ _ _ H). assert (Hh : (kur_half dim <= dim)%nat).
  { destruct dim as [|[|d]]; [cbn; lia|cbn; lia|]. destruct (half_rounds (Datatypes.S (Datatypes.S d))) as ([Q|[Q|Q]] & _); lia. }
  replace dim with (kur_half dim + (dim - kur_half dim))%nat at 1 by lia. rewrite sumn_app.
  rewrite (sumn_ext (kur_half dim) _ (fun _ => freq)). 2:{ intros i Hi. destruct (Nat.ltb_spec i (kur_half dim)); [auto|lia]. }
  rewrite (sumn_ext (dim - kur_half dim) _ (fun _ => - freq)). 2:{ intros i Hi. destruct (Nat.ltb_spec (kur_half dim + i) (kur_half dim)); [lia|auto]. }
  rewrite !sumn_const, minus_INR by auto. ring.
Qed.
(** with an even number of oscillators the deterministic part of the drift conserves the mean phase *)
Theorem C74_mean_phase_conserved dim freq K x : Nat.even dim = true -> sumn dim (kuramoto dim K (fun i => nth i (kur_ws dim freq) 0) x) = 0.
Proof.
  intro Hev. rewrite C74_coupling_cancels. destruct (C74_frequencies dim freq) as (_ & _ & _ & ->).
  assert (Q : (2 * kur_half dim = dim)%nat). { unfold kur_half. rewrite Hev. pose proof (Nat.div2_odd dim) as Q. rewrite <- Nat.negb_even, Hev in Q. cbn in Q. lia. }
  rewrite <- Q at 2. rewrite mult_INR. cbn. ring.
Qed.
