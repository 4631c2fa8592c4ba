(** Doubles: order with infinities, sums of non-negative numbers, quotients. *)
From Coq Require Import List ZArith Reals Permutation Bool Lia Lra.
From Flocq Require Import Core BinarySingleNaN Relative Plus_error.
From Verif Require Import Base.Num Run.Double Spec.DoubleSpec.
Import ListNotations.
Local Open Scope R_scope.

Definition big1024 : R := bpow radix2 1024.
(** value with infinities placed at +-2^1024 (beyond every finite double) *)
Definition ext (x : double) : R := match x with B754_infinity s => if s then - big1024 else big1024 | _ => B2R x end.
Lemma big_pos : 0 < big1024. Proof. apply bpow_gt_0. Qed.
Lemma ext_fin x : finite x -> ext x = B2R x. Proof. now destruct x. Qed.
Lemma fin_number x : finite x -> number x. Proof. now destruct x. Qed.
Lemma fin_lt (x : double) : - big1024 < B2R x < big1024.
Proof. pose proof (abs_B2R_lt_emax 53 1024 x) as A. apply Rabs_def2 in A. unfold big1024. lra. Qed.
Lemma number_cases (x : double) : number x -> finite x \/ x = dinf \/ x = B754_infinity true.
Proof. destruct x as [| [|] | |]; cbn; unfold finite; auto; discriminate. Qed.
Lemma ext_inf : ext dinf = big1024. Proof. reflexivity. Qed.
Lemma ext_ninf : ext (B754_infinity true) = - big1024. Proof. reflexivity. Qed.
Lemma ext_bound x : - big1024 <= ext x <= big1024.
Proof. pose proof big_pos. pose proof (fin_lt x). destruct x as [| [|] | |]; cbn [ext B2R] in *; lra. Qed.
Lemma leb_ext (x y : double) : number x -> number y -> (Bleb x y = true <-> ext x <= ext y).
Proof.
  pose proof big_pos as P.
  intros Nx Ny. destruct (number_cases x Nx) as [Fx | [ -> | -> ]], (number_cases y Ny) as [Fy | [ -> | -> ]];
    rewrite ?ext_inf, ?ext_ninf, ?ext_fin by auto; try (pose proof (fin_lt x)); try (pose proof (fin_lt y)).
  1: { rewrite Bleb_correct by auto. destruct (Rle_bool_spec (B2R x) (B2R y)); split; auto; try discriminate; lra. }
  all: try destruct x as [| | |]; try destruct y as [| | |]; try discriminate; cbn [B2R] in *; (split; intro; [try discriminate; try lra|try reflexivity; try lra]).
Qed.
Lemma ltb_ext (x y : double) : number x -> number y -> (Bltb x y = true <-> ext x < ext y).
Proof.
  pose proof big_pos as P.
  intros Nx Ny. destruct (number_cases x Nx) as [Fx | [ -> | -> ]], (number_cases y Ny) as [Fy | [ -> | -> ]];
    rewrite ?ext_inf, ?ext_ninf, ?ext_fin by auto; try (pose proof (fin_lt x)); try (pose proof (fin_lt y)).
  1: { rewrite Bltb_correct by auto. destruct (Rlt_bool_spec (B2R x) (B2R y)); split; auto; try discriminate; lra. }
  all: try destruct x as [| | |]; try destruct y as [| | |]; try discriminate; cbn [B2R] in *; (split; intro; [try discriminate; try lra|try reflexivity; try lra]).
Qed.
Lemma leb_number x y : dle x y -> number x /\ number y.
Proof. unfold dle, number. destruct x as [| [|] | | [|] ], y as [| [|] | | [|] ]; cbn; intro; try discriminate; auto. Qed.
Lemma dle_ext x y : dle x y <-> number x /\ number y /\ ext x <= ext y.
Proof. split. - intro H. destruct (leb_number x y H). split; [auto|]. split; [auto|]. now apply leb_ext. - intros (A & B & C). now apply leb_ext. Qed.
Lemma dle_fin x y : finite x -> finite y -> (dle x y <-> B2R x <= B2R y).
Proof. intros Fx Fy. rewrite dle_ext, !ext_fin by auto. split; [tauto|]. intro; repeat split; auto using fin_number. Qed.
Lemma ltb_nan_r (x y : double) : is_nan y = true -> Bltb x y = false.
Proof. destruct y; try discriminate. now destruct x as [| [|] | | [|] ]. Qed.
Lemma ltb_nan_l (x y : double) : is_nan x = true -> Bltb x y = false.
Proof. destruct x; try discriminate. now destruct y. Qed.
Lemma nan_eq (x : double) : is_nan x = true -> x = dNaN. Proof. now destruct x. Qed.

Lemma dZ0 : dZ 0 = B754_zero false. Proof. reflexivity. Qed.
Lemma dZ1 : finite (dZ 1) /\ B2R (dZ 1) = 1. Proof. apply dZ_exact. cbn. lia. Qed.
Lemma dZ0' : finite (dZ 0) /\ B2R (dZ 0) = 0. Proof. now split. Qed.

(** non-negative numbers *)
Definition nn (x : double) : Prop := number x /\ 0 <= ext x.
Lemma nn_dle x : nn x <-> dle (dZ 0) x.
Proof. rewrite dle_ext. change (ext (dZ 0)) with 0. unfold nn, number. cbn. tauto. Qed.
Lemma nn_cases x : nn x -> (finite x /\ 0 <= B2R x) \/ x = dinf.
Proof.
  pose proof big_pos as P. intros (N & H). destruct (number_cases x N) as [F | [ -> | -> ]]; auto.
  - left. rewrite ext_fin in H by auto. auto.
  - rewrite ext_ninf in H. lra.
Qed.
Lemma format (x : double) : generic_format radix2 (SpecFloat.fexp 53 1024) (B2R x). Proof. apply generic_format_B2R. Qed.
Lemma rnd_id (x : double) : rnd (B2R x) = B2R x.
Proof. apply round_generic; [apply valid_rnd_round_mode|apply format]. Qed.
Lemma rnd_le x y : x <= y -> rnd x <= rnd y.
Proof. apply round_le; [apply fexp_correct; reflexivity|apply valid_rnd_round_mode]. Qed.
Lemma rnd_0 : rnd 0 = 0. Proof. apply round_0. apply valid_rnd_round_mode. Qed.
Lemma rnd_nonneg x : 0 <= x -> 0 <= rnd x. Proof. intro. rewrite <- rnd_0. now apply rnd_le. Qed.
Lemma overflow_inf (m : double) s : binary_overflow 53 1024 mode_NE s = B2SF m -> m = B754_infinity s.
Proof. intro H. apply B2SF_inj. now rewrite <- H. Qed.

Lemma plus_nn x y : nn x -> nn y ->
  nn (Bplus mode_NE x y) /\ ext x <= ext (Bplus mode_NE x y) /\ ext y <= ext (Bplus mode_NE x y) /\
  (finite (Bplus mode_NE x y) -> finite x /\ finite y /\ B2R (Bplus mode_NE x y) = rnd (B2R x + B2R y)).
Proof.
  intros Hx Hy. pose proof big_pos as P.
  destruct (nn_cases x Hx) as [(Fx & Px) | -> ].
  2: { assert (Bplus mode_NE dinf y = dinf) as ->. { destruct (nn_cases y Hy) as [(Fy & _) | -> ]; [|reflexivity]. now destruct y. }
       split; [split; [reflexivity|cbn; lra]|]. split; [lra|]. split; [cbn; apply ext_bound|]. discriminate. }
  destruct (nn_cases y Hy) as [(Fy & Py) | -> ].
  2: { assert (Bplus mode_NE x dinf = dinf) as ->. { now destruct x. }
       split; [split; [reflexivity|cbn; lra]|]. split; [cbn; apply ext_bound|]. split; [lra|]. discriminate. }
  pose proof (Bplus_correct 53 1024 _ _ mode_NE x y Fx Fy) as C.
  destruct (Rlt_bool_spec (Rabs (rnd (B2R x + B2R y))) (bpow radix2 1024)) as [L|L].
  - destruct C as (C1 & C2 & _). rewrite !ext_fin, C1 by auto. pose proof (rnd_le (B2R x) (B2R x + B2R y) ltac:(lra)) as A.
    pose proof (rnd_le (B2R y) (B2R x + B2R y) ltac:(lra)) as B. rewrite !rnd_id in *.
    split; [|auto]. split; [now apply fin_number|]. rewrite ext_fin, C1 by auto. lra.
  - destruct C as (C1 & C2). symmetry in C1. apply overflow_inf in C1.
    assert (Bsign x = false) as S.
    { destruct (Bsign x) eqn:Sx; [|reflexivity]. exfalso. assert (Z : B2R x = 0).
      { destruct x as [| | |[|] m e b]; try discriminate; cbn; auto. exfalso. cbn in Px. pose proof (F2R_lt_0 radix2 (Float radix2 (Zneg m) e) ltac:(cbn; lia)). cbn in *. unfold F2R in *. cbn in *. lra. }
      rewrite Z, Rplus_0_l, rnd_id in L. pose proof (abs_B2R_lt_emax 53 1024 y). lra. }
    rewrite S in C1. rewrite C1. split; [split; [reflexivity|cbn; lra]|]. split; [apply ext_bound|]. split; [apply ext_bound|]. discriminate.
Qed.

(** ** sums of non-negative numbers *)
Definition total (l : list double) : R := fold_right (fun x s => B2R x + s) 0 l.
Lemma total_app l1 l2 : total (l1 ++ l2) = total l1 + total l2.
Proof. unfold total. induction l1 as [|x l IH]; cbn [app fold_right]; [lra|]. rewrite IH. lra. Qed.
Lemma total_perm l1 l2 : Permutation l1 l2 -> total l1 = total l2.
Proof. unfold total. induction 1; cbn [fold_right]; lra. Qed.
Definition gam (n : nat) : R := (1 + u) ^ (n - 1).
Lemma u_pos : 0 < u. Proof. unfold u. lra. Qed.
Lemma gam_ge n : 1 <= gam n. Proof. unfold gam. apply pow_R1_Rle. pose proof u_pos. lra. Qed.
Lemma gam_le n m : (n <= m)%nat -> gam n <= gam m. Proof. intro. unfold gam. apply Rle_pow; [pose proof u_pos; lra|lia]. Qed.
Lemma gam_S n : (1 <= n)%nat -> gam (Datatypes.S n) = gam n * (1 + u).
Proof. intro. unfold gam. replace (Datatypes.S n - 1)%nat with (Datatypes.S (n - 1)) by lia. cbn. ring. Qed.
Lemma tree_perm l l' s : tree_sum l s -> Permutation l l' -> tree_sum l' s \/ (l = l').
Proof. intros H P. destruct H; [right; apply Permutation_nil in P; now subst|right; apply Permutation_length_1_inv in P; now subst|left; econstructor; eauto]. now rewrite <- P. Qed.
Lemma rnd_plus_err (x y : double) : exists e, Rabs e <= u /\ rnd (B2R x + B2R y) = (B2R x + B2R y) * (1 + e).
Proof.
  destruct (FLT_plus_error_N_ex radix2 (-1074) 53 (fun n => negb (Z.even n)) (B2R x) (B2R y) (format x) (format y)) as (e & He & Q).
  exists e. split; [|exact Q]. eapply Rle_trans; [exact He|]. eapply Rle_trans; [apply u_rod1pu_ro_le_u_ro|]. unfold u_ro. rewrite <- bpow_u. apply Req_le. reflexivity.
Qed.
Lemma tree_nn l s : tree_sum l s -> (forall x, In x l -> nn x) ->
  nn s /\ (forall x, In x l -> ext x <= ext s) /\ 
  (finite s -> (forall x, In x l -> finite x) /\ total l * (2 - gam (List.length l)) <= B2R s <= total l * gam (List.length l)) /\
  ((forall x, In x l -> B2R x = 0 /\ finite x) -> finite s).
Proof.
  induction 1 as [|x|l l1 l2 x y P T1 IH1 T2 IH2]; intro H.
  - split; [split; [reflexivity|cbn; lra]|]. split; [intros ? []|]. split; [intro; split; [intros ? []|cbn; lra]|]. reflexivity.
  - assert (Hx : nn x) by (apply H; now left). split; [exact Hx|]. split; [intros z [ <- |[]]; lra|].
    split; [|intro A; apply A; now left]. intro F. split; [intros z [ <- |[]]; auto|]. change (gam (List.length [x])) with 1. cbn [total fold_right]. lra.
  - assert (M : forall z, In z l <-> In z l1 \/ In z l2). { intro z. rewrite <- in_app_iff. split; apply Permutation_in; [exact P|now apply Permutation_sym]. }
    destruct IH1 as (A1 & A2 & A3 & A4). { intros; apply H, M; auto. } destruct IH2 as (B1 & B2 & B3 & B4). { intros; apply H, M; auto. }
    destruct (plus_nn x y A1 B1) as (Q1 & Q2 & Q3 & Q4).
    split; [exact Q1|]. split. { intros z Hz. apply M in Hz. destruct Hz as [Hz|Hz]; [specialize (A2 z Hz)|specialize (B2 z Hz)]; lra. }
    split.
    + intro F. destruct (Q4 F) as (Fx & Fy & V). destruct (A3 Fx) as (A5 & A6). destruct (B3 Fy) as (B5 & B6).
      split. { intros z Hz. apply M in Hz. destruct Hz; auto. }
      rewrite (total_perm _ _ P), total_app, (Permutation_length P), app_length.
      assert (P1 : 0 <= B2R x) by (destruct A1 as (_ & A1); rewrite ext_fin in A1 by auto; auto).
      assert (P2 : 0 <= B2R y) by (destruct B1 as (_ & B1); rewrite ext_fin in B1 by auto; auto).
      assert (Hnn : forall k, (forall z, In z k -> nn z /\ finite z) -> 0 <= total k).
      { induction k as [|z k IH]; intro Hk; cbn [total fold_right]; [lra|]; fold (total k). destruct (Hk z ltac:(now left)) as ((_ & N1) & N2). rewrite ext_fin in N1 by auto. specialize (IH ltac:(intros; apply Hk; now right)). lra. }
      assert (S1 : 0 <= total l1) by (apply Hnn; intros; split; [apply H, M|]; auto).
      assert (S2 : 0 <= total l2) by (apply Hnn; intros; split; [apply H, M|]; auto).
      rewrite V. destruct l1 as [|z1 l1].
      { cbn [total fold_right List.length Nat.add] in *. assert (B2R x = 0) as -> by lra. rewrite !Rplus_0_l, rnd_id. lra. }
      destruct l2 as [|z2 l2].
      { cbn [total fold_right List.length] in B6. assert (B2R y = 0) as -> by lra. change (total []) with 0. change (List.length (@nil double)) with 0%nat. rewrite !Rplus_0_r, rnd_id, Nat.add_0_r. exact A6. }
      destruct (rnd_plus_err x y) as (e & He & ->). apply Rabs_le_inv in He. pose proof u_pos as U.
      set (n1 := List.length (z1 :: l1)) in *. set (n2 := List.length (z2 :: l2)) in *. assert (1 <= n1)%nat by (subst n1; cbn; lia). assert (1 <= n2)%nat by (subst n2; cbn; lia).
      set (t1 := total (z1 :: l1)) in *. set (t2 := total (z2 :: l2)) in *. set (G := gam (n1 + n2 - 1)).
      assert (GQ : gam (n1 + n2) = G * (1 + u)). { unfold G. rewrite <- gam_S by lia. f_equal. lia. }
      rewrite GQ. pose proof (gam_le n1 (n1 + n2 - 1) ltac:(lia)) as G1. pose proof (gam_le n2 (n1 + n2 - 1) ltac:(lia)) as G2. fold G in G1, G2. pose proof (gam_ge (n1 + n2 - 1)) as G3. fold G in G3.
      assert (X1 : t1 * (2 - G) <= B2R x <= t1 * G). { split; [eapply Rle_trans; [|apply A6]|eapply Rle_trans; [apply A6|]]; apply Rmult_le_compat_l; lra. }
      assert (X2 : t2 * (2 - G) <= B2R y <= t2 * G). { split; [eapply Rle_trans; [|apply B6]|eapply Rle_trans; [apply B6|]]; apply Rmult_le_compat_l; lra. }
      set (w := B2R x + B2R y). set (t := t1 + t2). assert (W : t * (2 - G) <= w <= t * G) by (unfold t, w; nra). assert (0 <= t) by (unfold t; lra). assert (0 <= w) by (unfold w; lra). assert (u < 1) by (unfold u; lra).
      split.
      * apply Rle_trans with (w * (1 - u)); [|apply Rmult_le_compat_l; lra]. apply Rle_trans with (t * (2 - G) * (1 - u)); [|apply Rmult_le_compat_r; lra].
        assert (0 <= t * (2 * u * (G - 1))) by (repeat apply Rmult_le_pos; lra). nra.
      * apply Rle_trans with (w * (1 + u)); [apply Rmult_le_compat_l; lra|]. rewrite <- Rmult_assoc. apply Rmult_le_compat_r; lra.
    + intro Z. assert (Fx : finite x) by (apply A4; intros; apply Z, M; auto). assert (Fy : finite y) by (apply B4; intros; apply Z, M; auto).
      assert (total l1 = 0 /\ total l2 = 0) as (Z1 & Z2).
      { assert (forall k, (forall z, In z k -> B2R z = 0) -> total k = 0) as K. { induction k as [|z k IH]; intro Hk; cbn [total fold_right]; [lra|]; fold (total k). rewrite (Hk z) by now left. rewrite IH; [lra|]. intros; apply Hk; now right. }
        split; apply K; intros; apply Z, M; auto. }
      destruct (A3 Fx) as (_ & A6). destruct (B3 Fy) as (_ & B6). rewrite Z1 in A6. rewrite Z2 in B6. assert (B2R x = 0 /\ B2R y = 0) as (V1 & V2) by lra.
      pose proof (Bplus_correct 53 1024 _ _ mode_NE x y Fx Fy) as C. rewrite V1, V2, Rplus_0_r, rnd_0, Rabs_R0 in C. rewrite Rlt_bool_true in C by apply bpow_gt_0. apply C.
Qed.

(** no overflow if the exact sum is far from it *)
Lemma total_nn k : (forall z, In z k -> nn z /\ finite z) -> 0 <= total k.
Proof.
  induction k as [|z k IH]; intro Hk; cbn [total fold_right]; [lra|]; fold (total k).
  destruct (Hk z ltac:(now left)) as ((_ & N1) & N2). rewrite ext_fin in N1 by auto. specialize (IH ltac:(intros; apply Hk; now right)). lra.
Qed.
Lemma tree_fin l s : tree_sum l s -> (forall x, In x l -> nn x /\ finite x) -> total l * gam (List.length l) <= bpow radix2 1000 -> finite s.
Proof.
  induction 1 as [|x|l l1 l2 x y P T1 IH1 T2 IH2]; intros H B; [reflexivity|apply H; now left|].
  assert (M : forall z, In z l <-> In z l1 \/ In z l2). { intro z. rewrite <- in_app_iff. split; apply Permutation_in; [exact P|now apply Permutation_sym]. }
  rewrite (total_perm _ _ P), total_app, (Permutation_length P), app_length in B.
  pose proof (total_nn l1 ltac:(intros; apply H, M; auto)) as S1. pose proof (total_nn l2 ltac:(intros; apply H, M; auto)) as S2.
  set (n1 := List.length l1) in *. set (n2 := List.length l2) in *.
  pose proof (gam_le n1 (n1 + n2) ltac:(lia)) as G1. pose proof (gam_le n2 (n1 + n2) ltac:(lia)) as G2. pose proof (gam_ge n1) as G3. pose proof (gam_ge n2) as G4. set (G := gam (n1 + n2)) in *.
  assert (B1 : total l1 * gam n1 <= total l1 * G) by (apply Rmult_le_compat_l; auto). assert (B2 : total l2 * gam n2 <= total l2 * G) by (apply Rmult_le_compat_l; auto).
  assert (C1 : 0 <= total l1 * G) by (apply Rmult_le_pos; lra). assert (C2 : 0 <= total l2 * G) by (apply Rmult_le_pos; lra).
  assert (Fx : finite x). { apply IH1; [intros; apply H, M; auto|]. lra. }
  assert (Fy : finite y). { apply IH2; [intros; apply H, M; auto|]. lra. }
  destruct (tree_nn l1 x T1) as (A1 & _ & A3 & _). { intros; apply H, M; auto. } destruct (tree_nn l2 y T2) as (D1 & _ & D3 & _). { intros; apply H, M; auto. }
  destruct (A3 Fx) as (_ & A4). destruct (D3 Fy) as (_ & D4). destruct A1 as (_ & A1). destruct D1 as (_ & D1). rewrite ext_fin in A1, D1 by auto. fold n1 in A4. fold n2 in D4.
  pose proof (Bplus_correct 53 1024 _ _ mode_NE x y Fx Fy) as C. rewrite rnd_small in C; [apply C|]. rewrite Rabs_pos_eq by lra. lra.
Qed.

(** ** quotients *)
Lemma div_unit x s : finite x -> finite s -> 0 <= B2R x <= B2R s -> 0 < B2R s ->
  finite (Bdiv mode_NE x s) /\ B2R (Bdiv mode_NE x s) = rnd (B2R x / B2R s) /\ 0 <= B2R (Bdiv mode_NE x s) <= 1.
Proof.
  intros Fx Fs Hx Hs. assert (Q : 0 <= B2R x / B2R s <= 1).
  { split; [apply Rmult_le_pos; [lra|]; left; now apply Rinv_0_lt_compat|]. apply Rmult_le_reg_r with (B2R s); auto. unfold Rdiv. rewrite Rmult_assoc, Rinv_l by lra. lra. }
  assert (V : rnd 1 = 1). { pose proof (rnd_id (dZ 1)) as I. destruct dZ1 as (_ & V). now rewrite V in I. }
  assert (L : 0 <= rnd (B2R x / B2R s) <= 1) by (split; [now apply rnd_nonneg|rewrite <- V; apply rnd_le; lra]).
  pose proof (Bdiv_correct 53 1024 _ _ mode_NE x s ltac:(lra)) as C. rewrite Rlt_bool_true in C.
  - destruct C as (C1 & C2 & _). split; [unfold finite; now rewrite C2|]. rewrite C1. auto.
  - rewrite Rabs_pos_eq by lra. apply Rle_lt_trans with 1; [lra|]. change 1 with (bpow radix2 0). apply bpow_lt. lia.
Qed.
Lemma zero_cases x : finite x -> B2R x = 0 -> exists s, x = B754_zero s.
Proof.
  destruct x as [s| | |[|] m e b]; intros F Z; try discriminate; eauto; exfalso; cbn in Z.
  - pose proof (F2R_lt_0 radix2 (Float radix2 (Zneg m) e) ltac:(cbn; lia)). lra.
  - pose proof (F2R_gt_0 radix2 (Float radix2 (Zpos m) e) ltac:(cbn; lia)). lra.
Qed.
Lemma div_zero x s : finite x -> B2R x = 0 -> finite s -> B2R s = 0 -> Bdiv mode_NE x s = dNaN.
Proof. intros Fx Vx Fs Vs. destruct (zero_cases x Fx Vx) as (? & ->). destruct (zero_cases s Fs Vs) as (? & ->). reflexivity. Qed.
Lemma div_inf x : finite x -> finite (Bdiv mode_NE x dinf) /\ B2R (Bdiv mode_NE x dinf) = 0.
Proof. destruct x; try discriminate; now split. Qed.
Lemma div_inf_inf : Bdiv mode_NE dinf dinf = dNaN. Proof. reflexivity. Qed.

(** (1+u)^(n-1) <= 1 + 2 n u as long as n u <= 1/2 *)
Lemma gam_lin n : INR n * u <= / 2 -> gam n <= 1 + 2 * INR n * u.
Proof.
  pose proof u_pos as U. assert (A : forall m, INR m * u <= / 2 -> (1 + u) ^ m <= 1 + 2 * INR m * u).
  { induction m as [|m IH]; intro H; [cbn; lra|]. rewrite S_INR in *. pose proof (pos_INR m) as P. specialize (IH ltac:(lra)). cbn [pow].
    assert (0 <= INR m * u) by (apply Rmult_le_pos; lra). apply Rle_trans with ((1 + u) * (1 + 2 * INR m * u)); [apply Rmult_le_compat_l; lra|].
    assert (2 * (INR m * u) * u <= u) by (rewrite <- (Rmult_1_l u) at 3; apply Rmult_le_compat_r; lra). lra. }
  intro H. unfold gam. destruct n as [|n]; [cbn; lra|]. replace (Datatypes.S n - 1)%nat with n by lia. rewrite S_INR in *. pose proof (pos_INR n). eapply Rle_trans; [apply A|]; nra.
Qed.

(** signs *)
Lemma neg_sign v : finite v -> Bsign v = true -> B2R v <= 0.
Proof. destruct v as [| | |[|] m e b]; try discriminate; intros _ _; [cbn; lra|]. change (F2R (Float radix2 (Zneg m) e) <= 0). left. apply F2R_lt_0. reflexivity. Qed.
Lemma pos_sign v : finite v -> Bsign v = false -> 0 <= B2R v.
Proof. destruct v as [| | |[|] m e b]; try discriminate; intros _ _; [cbn; lra|]. change (0 <= F2R (Float radix2 (Zpos m) e)). left. apply F2R_gt_0. reflexivity. Qed.
