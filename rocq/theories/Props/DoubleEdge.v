(** C84: the control of the first six and last five indices is accurate in double precision as long as the ensembles are well conditioned. *)
From Coq Require Import String List ZArith Reals Bool Lia Lra Psatz Permutation.
From Flocq Require Import Core BinarySingleNaN Relative.
From Verif Require Import Base.Num Base.Py Base.Arr Lib.ArrLemmas Lib.RSum Spec.RealSpec Model.Ext Model.Score Model.ScoreTorch Model.DPFC Model.TDPFC Run.Double Spec.DoubleSpec Spec.FlowSpec Spec.QuerySpec Spec.TorchSpec.
From Verif Require Import Lib.DoubleLemmas Lib.FlowLemmas Lib.StepLemmas Lib.QueryLemmas Lib.CoreLemmas Props.Flows Props.Queries Props.TorchQueries Props.DoubleQueries Props.DoubleWeights Props.DoubleAccuracy.
Import ListNotations.
Local Open Scope R_scope.

Section Edge.
  Context (fexp fsin fcos : double -> double) (fsum : list double -> double).
  #[local] Instance EOps : NumOps double := DoubleOps fexp fsin fcos fsum.

  (** ** sums of numbers of any sign *)
  Definition tabs (l : list double) : R := fold_right (fun x s => Rabs (B2R x) + s) 0 l.
  Lemma tabs_app l1 l2 : tabs (l1 ++ l2) = tabs l1 + tabs l2.
  Proof. unfold tabs. induction l1 as [|x l IH]; cbn [List.app fold_right]; [now rewrite Rplus_0_l|]. rewrite IH. ring. Qed.
  Lemma tabs_perm l1 l2 : Permutation l1 l2 -> tabs l1 = tabs l2.
  Proof. unfold tabs. induction 1; cbn [fold_right]; lra. Qed.
  Lemma tabs_nn l : 0 <= tabs l.
  Proof. unfold tabs. induction l as [|x l IH]; cbn [fold_right]; [lra|]. pose proof (Rabs_pos (B2R x)). lra. Qed.
  Lemma total_tabs l : Rabs (total l) <= tabs l.
  Proof. unfold total, tabs. induction l as [|x l IH]; cbn [fold_right]; [rewrite Rabs_R0; lra|]. eapply Rle_trans; [apply Rabs_triang|]. lra. Qed.
  Lemma tree_signed l s : tree_sum l s -> (forall x, In x l -> finite x) -> tabs l * gam (List.length l) <= bpow radix2 1000 ->
    finite s /\ Rabs (B2R s - total l) <= tabs l * (gam (List.length l) - 1).
  Proof.
    induction 1 as [|x|l l1 l2 x y P T1 IH1 T2 IH2]; intros H B.
    - split; [reflexivity|]. destruct dZ0' as (_ & ->). cbn [total tabs fold_right]. rewrite Rminus_0_r, Rabs_R0. lra.
    - split; [apply H; now left|]. change (gam (List.length [x])) with 1. cbn [total tabs fold_right]. replace (B2R x - (B2R x + 0)) with 0 by ring. rewrite Rabs_R0. lra.
    - assert (M : forall z, In z l <-> In z l1 \/ In z l2). { intro z. rewrite <- in_app_iff. split; apply Permutation_in; [exact P|now apply Permutation_sym]. }
      rewrite (tabs_perm _ _ P), (total_perm _ _ P), tabs_app, total_app, (Permutation_length P), app_length in *.
      pose proof (tabs_nn l1) as S1. pose proof (tabs_nn l2) as S2. set (n1 := List.length l1) in *. set (n2 := List.length l2) in *.
      pose proof (gam_le n1 (n1 + n2) ltac:(lia)) as G1. pose proof (gam_le n2 (n1 + n2) ltac:(lia)) as G2. pose proof (gam_ge n1) as G3. pose proof (gam_ge n2) as G4.
      assert (B1 : tabs l1 * gam n1 <= tabs l1 * gam (n1 + n2)) by (apply Rmult_le_compat_l; auto). assert (B2 : tabs l2 * gam n2 <= tabs l2 * gam (n1 + n2)) by (apply Rmult_le_compat_l; auto).
      assert (C1 : 0 <= tabs l1 * gam (n1 + n2)) by (apply Rmult_le_pos; lra). assert (C2 : 0 <= tabs l2 * gam (n1 + n2)) by (apply Rmult_le_pos; lra).
      destruct IH1 as (Fx & Ex). { intros; apply H, M; auto. } { lra. } destruct IH2 as (Fy & Ey). { intros; apply H, M; auto. } { lra. }
      pose proof (total_tabs l1) as A1. pose proof (total_tabs l2) as A2.
      pose proof (Bplus_correct 53 1024 _ _ mode_NE x y Fx Fy) as C.
      assert (Bx : Rabs (B2R x) <= tabs l1 * gam n1). { apply Rabs_le_inv in Ex, A1. apply Rabs_le. split; lra. }
      assert (By : Rabs (B2R y) <= tabs l2 * gam n2). { apply Rabs_le_inv in Ey, A2. apply Rabs_le. split; lra. }
      rewrite rnd_small in C. 2: { eapply Rle_trans; [apply Rabs_triang|]. lra. } destruct C as (V & F & _). split; [exact F|]. rewrite V.
      destruct l1 as [|z1 l1].
      { cbn [total tabs fold_right] in *. replace (B2R x) with 0 by (apply Rabs_le_inv in Bx; lra). rewrite !Rplus_0_l, rnd_id. exact Ey. }
      destruct l2 as [|z2 l2].
      { subst n2. cbn [total tabs fold_right List.length] in *. replace (B2R y) with 0 by (apply Rabs_le_inv in By; lra). rewrite !Rplus_0_r, rnd_id, Nat.add_0_r. exact Ex. }
      destruct (rnd_plus_err x y) as (e & He & ->). pose proof u_pos as U.
      assert (1 <= n1)%nat by (subst n1; cbn; lia). assert (1 <= n2)%nat by (subst n2; cbn; lia).
      set (a1 := tabs (z1 :: l1)) in *. set (a2 := tabs (z2 :: l2)) in *. set (t1 := total (z1 :: l1)) in *. set (t2 := total (z2 :: l2)) in *. set (G := gam (n1 + n2 - 1)).
      assert (GQ : gam (n1 + n2) = G * (1 + u)). { unfold G. rewrite <- gam_S by lia. f_equal. lia. }
      rewrite GQ. pose proof (gam_le n1 (n1 + n2 - 1) ltac:(lia)) as G1'. pose proof (gam_le n2 (n1 + n2 - 1) ltac:(lia)) as G2'. fold G in G1', G2'.
      assert (X1 : Rabs (B2R x - t1) <= a1 * (G - 1)) by (eapply Rle_trans; [exact Ex|]; apply Rmult_le_compat_l; lra).
      assert (X2 : Rabs (B2R y - t2) <= a2 * (G - 1)) by (eapply Rle_trans; [exact Ey|]; apply Rmult_le_compat_l; lra).
      assert (W : Rabs (B2R x + B2R y) <= (a1 + a2) * G). { apply Rabs_le_inv in X1, X2, A1, A2. apply Rabs_le. split; lra. }
      replace ((B2R x + B2R y) * (1 + e) - (t1 + t2)) with ((B2R x - t1) + (B2R y - t2) + (B2R x + B2R y) * e) by ring.
      assert (Q : Rabs ((B2R x + B2R y) * e) <= (a1 + a2) * G * u). { rewrite Rabs_mult. apply Rmult_le_compat; auto using Rabs_pos. }
      eapply Rle_trans; [apply Rabs_triang|]. eapply Rle_trans; [apply Rplus_le_compat; [apply Rabs_triang|exact Q]|]. lra.
  Qed.

  Lemma sum_big (n : nat) (f : nat -> double) (V : nat -> R) k m : sum_contract fsum -> INR n <= 1000000 -> 0 <= k <= / 1000 -> 0 <= m <= / 1000 ->
    (forall d, (d < n)%nat -> 0 <= V d <= 1000000000 /\ app (f d) (V d) k m) -> app (nsum (map f (seq 0 n))) (sumn n V) (k + 3 * INR n * u) (2 * INR n * m).
  Proof.
    intros Hs N3 Hk Hm H. cbn [nsum EOps DoubleOps]. pose proof (Hs (map f (seq 0 n))) as TS. set (s := fsum (map f (seq 0 n))) in *.
    assert (NN : forall z, In z (map f (seq 0 n)) -> nn z /\ finite z).
    { intros z Hz. apply in_map_iff in Hz. destruct Hz as (d & <- & Hd). apply in_seq in Hd. destruct (H d ltac:(lia)) as (_ & A & B & _). split; [|exact A]. split; [now apply fin_number|]. now rewrite ext_fin by auto. }
    pose proof (pos_INR n) as P.
    assert (U : 0 < u <= / 1000000000000) by (unfold u; lra). pose proof (gam_lin n ltac:(unfold u; nra)) as G. pose proof (gam_ge n) as G1.
    set (X := sumn n (fun d => B2R (f d))). set (Y := sumn n V).
    assert (XY : Rabs (X - Y) <= Y * k + INR n * m).
    { unfold X, Y. clear -H Hm. assert (L : forall c, (c <= n)%nat -> Rabs (sumn c (fun d => B2R (f d)) - sumn c V) <= sumn c V * k + INR c * m); [|now apply L]. induction c as [|c IH]; intro Hc; [cbn; rewrite Rminus_0_r, Rabs_R0; lra|].
      specialize (IH ltac:(lia)). rewrite S_INR. cbn [sumn]. destruct (H c ltac:(lia)) as (_ & _ & _ & A). apply Rabs_le_inv in A, IH. apply Rabs_le. lra. }
    assert (Y0 : 0 <= Y) by (apply sumn_ge0; intros d Hd; apply (H d Hd)).
    assert (YB : Y <= INR n * 1000000000) by (unfold Y; rewrite <- sumn_const; apply sumn_le; intros d Hd; apply (H d Hd)).
    assert (X0 : 0 <= X) by (apply sumn_ge0; intros d Hd; apply (H d Hd)).
    assert (nm0 : 0 <= INR n * m <= 1000) by (split; [apply Rmult_le_pos; lra|]; apply Rle_trans with (1000000 * / 1000); [apply Rmult_le_compat; lra|lra]).
    assert (XB : X <= 2000000000000000). { apply Rabs_le_inv in XY. assert (Y * k <= Y * / 1000) by (apply Rmult_le_compat_l; lra). lra. }
    assert (GB : gam n <= 2) by (assert (INR n * u <= 1000000 * u) by (apply Rmult_le_compat_r; lra); lra).
    assert (Fs : finite s). { apply (tree_fin _ _ TS NN). rewrite total_seq, map_length, seq_length. fold X. apply Rle_trans with (bpow radix2 60); [|apply bpow_le; lia]. apply Rle_trans with (2000000000000000 * 2); [apply Rmult_le_compat; lra|cbn; lra]. }
    destruct (tree_nn _ _ TS ltac:(intros z Hz; now apply NN)) as ((_ & S0) & _ & C & _). destruct (C Fs) as (_ & T). rewrite ext_fin in S0 by auto. rewrite total_seq, map_length, seq_length in T. fold X in T.
    split; [exact Fs|]. split; [exact S0|]. apply Rabs_le_inv in XY. set (q := 2 * INR n * u) in *. assert (Q : 0 <= q <= / 100000) by (unfold q, u in *; nra).
    assert (Xq : X * (1 - q) <= B2R s <= X * (1 + q)). { split; [eapply Rle_trans; [|apply T]|eapply Rle_trans; [apply T|]]; apply Rmult_le_compat_l; lra. }
    replace (3 * INR n * u) with (3 / 2 * q) by (unfold q; field). set (nm := INR n * m) in *. replace (2 * INR n * m) with (2 * nm) by (unfold nm; ring).
    assert (0 <= Y * k <= Y * / 1000) by (split; [apply Rmult_le_pos; lra|apply Rmult_le_compat_l; lra]).
    assert (A1 : X * q <= (Y * (1 + / 1000) + nm) * q) by (apply Rmult_le_compat_r; lra). assert (A2 : nm * q <= nm * / 100000) by (apply Rmult_le_compat_l; lra). assert (0 <= Y * q) by (apply Rmult_le_pos; lra).
    apply Rabs_le. split; lra.
  Qed.

  Section Row.
    Context (Hs : sum_contract fsum) (N : nat) (x : nat -> double) (X : R) (HN : (2 <= N)%nat) (HB : INR N <= 1000000) (HX : / 1000000 <= X <= 5000)
      (Hx : forall n, (n < N)%nat -> finite (x n) /\ Rabs (B2R (x n)) <= X).
    Let l := map x (seq 0 N).
    Let n := INR N.
    Let mu := mean N (fun i => B2R (x i)).
    Lemma n2 : 2 <= n <= 1000000.
    Proof. unfold n. split; [|exact HB]. replace 2 with (INR 2) by (cbn; ring). now apply le_INR. Qed.
    Lemma uu : 0 < u <= / 1000000000000000. Proof. unfold u; lra. Qed.
    Lemma nuu : 0 <= n * u <= / 1000000000.
    Proof. pose proof n2. pose proof uu. split; [apply Rmult_le_pos; lra|]. apply Rle_trans with (1000000 * u); [apply Rmult_le_compat_r; lra|unfold u; lra]. Qed.
    Lemma Nz : (Z.of_nat N < 9007199254740992)%Z.
    Proof. apply lt_IZR. rewrite <- INR_IZR_INZ. lra. Qed.
    Lemma ll : List.length l = N. Proof. unfold l. now rewrite map_length, seq_length. Qed.
    Lemma l_in y : In y l -> finite y /\ Rabs (B2R y) <= X.
    Proof. unfold l. intro H. apply in_map_iff in H. destruct H as (i & <- & Hi). apply in_seq in Hi. apply Hx. lia. Qed.
    Lemma mu_bound : Rabs mu <= X.
    Proof.
      pose proof n2 as N2. unfold mu, mean. fold n. unfold Rdiv. rewrite Rabs_mult, (Rabs_pos_eq (/ n)) by (left; apply Rinv_0_lt_compat; lra).
      apply Rmult_le_reg_r with n; [lra|]. rewrite Rmult_assoc, Rinv_l, Rmult_1_r by lra. eapply Rle_trans; [apply sumn_abs|]. rewrite Rmult_comm. unfold n. rewrite <- sumn_const. apply sumn_le. intros i Hi. now apply Hx.
    Qed.
    Lemma mean_near : finite (nmean l) /\ Rabs (B2R (nmean l) - mu) <= 4 * n * u * X.
    Proof.
      pose proof n2 as N2. pose proof uu as U. pose proof nuu as NU. pose proof mu_bound as MB. pose proof (Hs l) as TS.
      assert (TA : tabs l <= n * X).
      { assert (K : forall k, (forall y, In y k -> Rabs (B2R y) <= X) -> tabs k <= INR (List.length k) * X).
        { induction k as [|y k IH]; intro H; [cbn; lra|]. cbn [tabs fold_right]. fold (tabs k). cbn [List.length]. rewrite S_INR. specialize (H y ltac:(now left)) as Hy. specialize (IH ltac:(intros; apply H; now right)). lra. }
        eapply Rle_trans; [apply K; intros; now apply l_in|]. rewrite ll. apply Rle_refl. }
      pose proof (gam_lin N ltac:(fold n; lra)) as G. fold n in G. pose proof (gam_ge N) as G1. pose proof (tabs_nn l) as T0.
      destruct (tree_signed l (fsum l) TS) as (Fs & Es). { intros; now apply l_in. }
      { rewrite ll. apply Rle_trans with (bpow radix2 60); [|apply bpow_le; lia]. apply Rle_trans with (10000000000 * 2); [apply Rmult_le_compat; try lra|cbn; lra]. eapply Rle_trans; [exact TA|]. apply Rle_trans with (1000000 * 5000); [apply Rmult_le_compat; lra|lra]. }
      rewrite ll in Es. replace (total l) with (mu * n) in Es by (unfold l, mu, mean; rewrite total_seq; fold n; field; lra).
      assert (E1 : Rabs (B2R (fsum l) - mu * n) <= n * X * (2 * n * u)). { eapply Rle_trans; [exact Es|]. apply Rmult_le_compat; lra. }
      assert (E2 : Rabs (B2R (fsum l) / n - mu) <= 2 * n * u * X).
      { replace (B2R (fsum l) / n - mu) with ((B2R (fsum l) - mu * n) * / n) by (field; lra). rewrite Rabs_mult, (Rabs_pos_eq (/ n)) by (left; apply Rinv_0_lt_compat; lra).
        apply Rmult_le_reg_r with n; [lra|]. rewrite Rmult_assoc, Rinv_l, Rmult_1_r by lra. lra. }
      assert (XU : 0 <= n * u * X <= / 1000000000 * X) by (split; [apply Rmult_le_pos; lra|apply Rmult_le_compat_r; lra]).
      assert (E3 : Rabs (B2R (fsum l) / n) <= X * 1.5) by (apply Rabs_le_inv in E2, MB; apply Rabs_le; split; lra).
      destruct (nofnat_ex fexp fsin fcos fsum N Nz) as (Fn & Vn). fold n in Vn. unfold nmean. rewrite ll. cbn [ndiv nsum EOps DoubleOps]. change (nofnat (O := QOps fexp fsin fcos fsum) N) with (nofnat N) in *.
      pose proof (Bdiv_correct 53 1024 _ _ mode_NE (fsum l) (nofnat N) ltac:(rewrite Vn; lra)) as C. rewrite Vn, rnd_small in C by (apply big; lra). destruct C as (V & F & _). rewrite Fs in F. split; [exact F|]. rewrite V.
      pose proof (rnd_error (B2R (fsum l) / n)) as R. pose proof eta_u as EU. 
      assert (Q1 : u * Rabs (B2R (fsum l) / n) <= u * (X * 1.5)) by (apply Rmult_le_compat_l; lra).
      assert (Q2 : u * / 10000000000000 <= u * (X * / 10)) by (apply Rmult_le_compat_l; lra). assert (Q3 : 2 * (u * X) <= n * (u * X)) by (apply Rmult_le_compat_r; [apply Rmult_le_pos|]; lra).
      apply Rabs_le_inv in R, E2. apply Rabs_le. split; lra.
    Qed.

    Let S0 := sumn N (fun i => (B2R (x i) - mu) ^ 2).
    Lemma sq_shift c : sumn N (fun i => (B2R (x i) - c) ^ 2) = S0 + n * (mu - c) ^ 2.
    Proof.
      pose proof n2 as N2. unfold S0. rewrite (sumn_ext N _ (fun i => (B2R (x i) - mu) ^ 2 + (2 * (mu - c) * (B2R (x i) - mu) + (mu - c) ^ 2))) by (intros; ring).
      rewrite !sumn_plus, sumn_scal, sumn_minus, !sumn_const. fold n. replace (sumn N (fun i => B2R (x i))) with (n * mu) by (unfold mu, mean; fold n; field; lra). ring.
    Qed.
    Context (q : double) (M : R) (Vq : B2R q = M) (HM : n / 2 <= M <= n).
    Let var := S0 / M.
    Context (Hvar : / 1000000000000 <= var) (Hcond : n * X ^ 2 <= 100000000000000 * var).
    Lemma S0v : S0 = var * M. Proof. pose proof n2. unfold var. field. lra. Qed.
    Lemma var_X : var <= 8 * (X * X).
    Proof.
      pose proof n2 as N2. pose proof mu_bound as MB. assert (B : S0 <= n * (4 * (X * X))).
      { unfold S0, n. rewrite <- sumn_const. apply sumn_le. intros i Hi. destruct (Hx i Hi) as (_ & A). apply Rabs_le_inv in A, MB. assert (D : - (2 * X) <= B2R (x i) - mu <= 2 * X) by lra. set (t := B2R (x i) - mu) in *. nra. }
      assert (X2 : 0 <= X * X) by (apply Rmult_le_pos; lra). rewrite S0v in B. apply Rmult_le_reg_r with M; [lra|]. eapply Rle_trans; [exact B|]. assert (X * X * n <= X * X * (2 * M)) by (apply Rmult_le_compat_l; lra). lra.
    Qed.
    Lemma var_big : var <= 200000000.
    Proof. pose proof var_X. assert (X * X <= 5000 * 5000) by (apply Rmult_le_compat; lra). lra. 
    Qed.
    Lemma ssd_near : finite (ssd l) /\ 0 <= B2R (ssd l) /\ Rabs (B2R (ssd l) - S0) <= S0 * (5.6 * n * u).
    Proof.
      pose proof n2 as N2. pose proof uu as U. pose proof nuu as NU. pose proof mu_bound as MB. destruct mean_near as (Fm & Em). set (m := nmean l) in *.
      assert (XU : 0 <= n * u * X <= / 1000000000 * X) by (split; [apply Rmult_le_pos; lra|apply Rmult_le_compat_r; lra]).
      assert (Bm : Rabs (B2R m) <= 10000) by (apply Rabs_le_inv in Em, MB; apply Rabs_le; split; lra).
      assert (Q : app (ssd l) (sumn N (fun i => (B2R (x i) - B2R m) ^ 2)) (4 * u + 3 * n * u) (2 * n * eta)).
      { unfold ssd. fold m. unfold l at 1. rewrite map_map. apply sum_big; [exact Hs|exact HB|lra|unfold eta; lra|]. intros i Hi. destruct (Hx i Hi) as (Fi & Bi). 
        split; [apply sq_bnd; lra|]. apply sq_app; auto. lra. }
      rewrite sq_shift in Q. destruct Q as (F & P & E). split; [exact F|]. split; [exact P|].
      assert (D : n * (mu - B2R m) ^ 2 <= S0 * (0.4 * (n * u))).
      { assert (D1 : (mu - B2R m) ^ 2 <= (4 * (n * u * X)) ^ 2). { apply pow_maj_Rabs. rewrite Rabs_minus_sym. lra. }
        apply Rle_trans with (n * (4 * (n * u * X)) ^ 2); [apply Rmult_le_compat_l; lra|].
        replace (n * (4 * (n * u * X)) ^ 2) with ((n * X ^ 2) * (16 * (n * u) * (n * u))) by ring.
        apply Rle_trans with (100000000000000 * var * (16 * (n * u) * (n * u))). { apply Rmult_le_compat_r; [|exact Hcond]. apply Rmult_le_pos; [|lra]. lra. }
        rewrite S0v. replace (100000000000000 * var * (16 * (n * u) * (n * u))) with (1600000000000000 * u * (var * n * (n * u))) by ring.
        replace (var * M * (0.4 * (n * u))) with (0.2 * (var * (2 * M) * (n * u))) by lra. assert (VN : 0 <= var * n * (n * u)) by (apply Rmult_le_pos; [apply Rmult_le_pos|]; lra).
        apply Rle_trans with (0.2 * (var * n * (n * u))); [apply Rmult_le_compat_r; [exact VN|unfold u; lra]|]. apply Rmult_le_compat_l; [lra|]. apply Rmult_le_compat_r; [lra|]. apply Rmult_le_compat_l; lra. }
      set (dd := n * (mu - B2R m) ^ 2) in *. assert (D0 : 0 <= dd) by (apply Rmult_le_pos; [lra|apply pow2_ge_0]).
      assert (S00 : 0 <= S0) by (rewrite S0v; apply Rmult_le_pos; lra). assert (SU : 0 <= S0 * u) by (apply Rmult_le_pos; lra). assert (SN : 0 <= S0 * (n * u)) by (apply Rmult_le_pos; lra).
      assert (S2 : 2 * (S0 * u) <= S0 * (n * u)). { replace (2 * (S0 * u)) with (S0 * (2 * u)) by ring. apply Rmult_le_compat_l; [exact S00|]. apply Rmult_le_compat_r; lra. }
      assert (ET : 2 * n * eta <= S0 * u * / 10).
      { rewrite S0v. apply Rle_trans with (/ 1000000000000 * (n / 2) * u * / 10); [unfold eta, u; lra|]. apply Rmult_le_compat_r; [lra|]. apply Rmult_le_compat_r; [lra|]. apply Rmult_le_compat; lra. }
      assert (D2 : dd * (4 * u + 3 * n * u) <= dd * / 10) by (apply Rmult_le_compat_l; lra).
      apply Rabs_le_inv in E. apply Rabs_le. split; lra.
    Qed.
    Lemma rel_rnd v : bpow radix2 (-1000) <= v -> exists e, Rabs e <= u /\ rnd v = v * (1 + e).
    Proof.
      intro H. pose proof (bpow_gt_0 radix2 (-1000)) as P. pose proof (rnd_rel v) as R. rewrite (Rabs_pos_eq v) in R by lra. specialize (R H).
      exists ((rnd v - v) / v). split; [|field; lra]. unfold Rdiv. rewrite Rabs_mult, (Rabs_pos_eq (/ v)) by (left; apply Rinv_0_lt_compat; lra).
      apply Rmult_le_reg_r with v; [lra|]. rewrite Rmult_assoc, Rinv_l by lra. lra.
    Qed.
    Lemma tiny v : / 10000000000000000 <= v -> bpow radix2 (-1000) <= v.
    Proof. intro H. apply Rle_trans with (bpow radix2 (-60)); [apply bpow_le; lia|]. eapply Rle_trans; [|exact H]. cbn. lra. Qed.
    (** the squared standard deviation *)
    Lemma var_near : let w := nsq (nsqrt (ndiv (ssd l) q)) in finite w /\ Rabs (B2R w - var) <= var * (9 * n * u) /\ B2R w <= 1000000000.
    Proof.
      pose proof n2 as N2. pose proof uu as U. pose proof nuu as NU. pose proof var_big as VB. destruct ssd_near as (Fs & Ps & Es). cbv zeta. unfold nsq. cbn [nsqrt ndiv nmul EOps DoubleOps].
      set (s := ssd l) in *. pose proof (Bdiv_correct 53 1024 _ _ mode_NE s q ltac:(lra)) as C. rewrite Vq in C.
      set (t := B2R s / M) in *. assert (St : B2R s = t * M) by (unfold t; field; lra).
      assert (Et : var * (1 - 5.6 * (n * u)) <= t <= var * (1 + 5.6 * (n * u))).
      { rewrite St, S0v in Es. apply Rabs_le_inv in Es. split; apply Rmult_le_reg_r with M; lra. }
      assert (VU : 0 <= var * u) by (apply Rmult_le_pos; lra). assert (VN : 0 <= var * (n * u) <= var * / 1000000000) by (split; [apply Rmult_le_pos|apply Rmult_le_compat_l]; lra).
      assert (V2 : 2 * (var * u) <= var * (n * u)). { replace (2 * (var * u)) with (var * (2 * u)) by ring. apply Rmult_le_compat_l; [lra|]. apply Rmult_le_compat_r; lra. }
      assert (Tb : / 2000000000000 <= t <= 300000000) by lra.
      rewrite rnd_small in C by (apply big; rewrite Rabs_pos_eq; lra). destruct C as (Vv & Fv & _). rewrite Fs in Fv. set (v := Bdiv mode_NE s q) in *.
      destruct (rel_rnd t) as (e1 & H1 & R1); [apply tiny; lra|]. rewrite R1 in Vv. apply Rabs_le_inv in H1.
      assert (TU : 0 <= t * u <= 1.01 * (var * u)). { split; [apply Rmult_le_pos; lra|]. rewrite <- Rmult_assoc. apply Rmult_le_compat_r; lra. }
      assert (Te : - (t * u) <= t * e1 <= t * u). { split; [replace (- (t * u)) with (t * (- u)) by ring|]; apply Rmult_le_compat_l; lra. }
      assert (Ev : var * (1 - 6.2 * (n * u)) <= B2R v <= var * (1 + 6.2 * (n * u))) by (rewrite Vv; lra).
      assert (Vb : / 4000000000000 <= B2R v <= 400000000) by lra.
      pose proof (Bsqrt_correct 53 1024 _ _ mode_NE v) as (Vr & Fr & _). set (r := Bsqrt mode_NE v) in *.
      assert (Fr' : finite r). { unfold finite. rewrite Fr. destruct v as [| | |[|] ? ? ?] eqn:Ev'; try discriminate; try reflexivity. exfalso. cbn in Vb. pose proof (F2R_lt_0 radix2 (Float radix2 (Zneg m) e) ltac:(cbn; lia)). lra. }
      change (B2R r = rnd (sqrt (B2R v))) in Vr. clear Fr.
      assert (Sq : / 10000000 <= sqrt (B2R v) <= 30000). { split; [rewrite <- (sqrt_Rsqr (/ 10000000)) by lra|rewrite <- (sqrt_Rsqr 30000) by lra]; apply sqrt_le_1_alt; unfold Rsqr; lra. }
      destruct (rel_rnd (sqrt (B2R v))) as (e2 & H2 & R2); [apply tiny; lra|]. rewrite R2 in Vr. apply Rabs_le_inv in H2.
      assert (Rr : B2R r * B2R r = B2R v * ((1 + e2) * (1 + e2))). { rewrite Vr. replace (sqrt (B2R v) * (1 + e2) * (sqrt (B2R v) * (1 + e2))) with (sqrt (B2R v) * sqrt (B2R v) * ((1 + e2) * (1 + e2))) by ring. rewrite sqrt_sqrt by lra. reflexivity. }
      set (g := (1 + e2) * (1 + e2)) in *. assert (Hg : 1 - 2.01 * u <= g <= 1 + 2.01 * u) by (unfold g; nra).
      set (z := B2R v) in *. assert (ZU : 0 <= z * u <= 1.01 * (var * u)). { split; [apply Rmult_le_pos; lra|]. rewrite <- Rmult_assoc. apply Rmult_le_compat_r; lra. }
      assert (Zg : z * (1 - 2.01 * u) <= z * g <= z * (1 + 2.01 * u)) by (split; apply Rmult_le_compat_l; lra).
      assert (Zb : / 8000000000000 <= z * g <= 500000000) by lra.
      pose proof (Bmult_correct 53 1024 _ _ mode_NE r r) as C. rewrite Rr, rnd_small in C by (apply big; rewrite Rabs_pos_eq; lra). destruct C as (Vw & Fw & _). rewrite Fr' in Fw. split; [exact Fw|]. rewrite Vw.
      destruct (rel_rnd (z * g)) as (e3 & H3 & R3); [apply tiny; lra|]. rewrite R3. apply Rabs_le_inv in H3.
      assert (GU : 0 <= z * g * u <= 1.02 * (var * u)). { split; [apply Rmult_le_pos; lra|]. rewrite <- Rmult_assoc. apply Rmult_le_compat_r; lra. }
      assert (Ge : - (z * g * u) <= z * g * e3 <= z * g * u). { split; [replace (- (z * g * u)) with (z * g * (- u)) by ring|]; apply Rmult_le_compat_l; lra. }
      split; [|lra]. apply Rabs_le. split; lra.
    Qed.
    (** -(v - mean)/std^2 *)
    Lemma score_near v : finite v -> Rabs (B2R v) <= 10000 ->
      let r := ndiv (nopp (nsub v (nmean l))) (nsq (nsqrt (ndiv (ssd l) q))) in let K := (Rabs (B2R v) + X) / var in
      finite r /\ Rabs (B2R r - - (B2R v - mu) / var) <= 16 * (n * u) * K /\ Rabs (- (B2R v - mu) / var) <= K /\ K <= 100000000000000000.
    Proof.
      intros Fv Bv. pose proof n2 as N2. pose proof uu as U. pose proof nuu as NU. pose proof mu_bound as MB. destruct mean_near as (Fm & Em). destruct var_near as (Fw & Ew & Bw). cbv zeta.
      set (w := nsq (nsqrt (ndiv (ssd l) q))) in *. set (m := nmean l) in *. set (W := Rabs (B2R v) + X) in *. pose proof (Rabs_pos (B2R v)) as Pv.
      assert (HW : 0 < W) by (unfold W; lra). set (K := W / var). assert (WK : W = K * var) by (unfold K; field; lra). assert (PK : 0 < K) by (unfold K; apply Rmult_lt_0_compat; [lra|apply Rinv_0_lt_compat; lra]).
      assert (KB : K <= 100000000000000000). { apply Rmult_le_reg_r with var; [lra|]. rewrite <- WK. unfold W. lra. }
      assert (WB : Rabs (B2R v - mu) <= W). { unfold Rminus. eapply Rle_trans; [apply Rabs_triang|]. rewrite Rabs_Ropp. unfold W. lra. }
      assert (UW : 0 <= u * W) by (apply Rmult_le_pos; lra). assert (NUW : 2 * (u * W) <= n * (u * W)) by (apply Rmult_le_compat_r; lra).
      assert (XW : n * u * X <= n * u * W) by (apply Rmult_le_compat_l; unfold W; lra).
      assert (NW : 0 <= n * u * W <= / 1000000000 * W) by (split; [apply Rmult_le_pos; lra|apply Rmult_le_compat_r; lra]).
      (* the numerator *)
      assert (Dm : Rabs (B2R v - B2R m) <= 1.01 * W). { apply Rabs_le_inv in WB, Em. apply Rabs_le. split; lra. }
      pose proof (Bminus_correct 53 1024 _ _ mode_NE v m Fv Fm) as C. rewrite rnd_small in C by (apply big; unfold W in *; lra). destruct C as (Va & Fa & _).
      change (Bminus mode_NE v m) with (nsub v m) in *. set (a := nsub v m) in *. destruct (minus_rel v m) as (e & He & Re). rewrite Re in Va.
      assert (Ea : Rabs (B2R a - (B2R v - mu)) <= 4.6 * (n * u * W)).
      { replace (B2R a - (B2R v - mu)) with (- (B2R m - mu) + (B2R v - B2R m) * e) by (rewrite Va; ring). eapply Rle_trans; [apply Rabs_triang|]. rewrite Rabs_Ropp, Rabs_mult.
        assert (Rabs (B2R v - B2R m) * Rabs e <= 1.01 * W * u) by (apply Rmult_le_compat; auto using Rabs_pos). lra. }
      (* the quotient *)
      set (y := B2R w) in *. apply Rabs_le_inv in Ew. assert (VN : 0 <= var * (n * u) <= var * / 1000000000) by (split; [apply Rmult_le_pos|apply Rmult_le_compat_l]; lra).
      assert (Py : var * 0.99 <= y) by lra. assert (Ny : 0 < y) by lra.
      set (h := B2R v - mu) in *. set (t := B2R a / y). assert (At : B2R a = t * y) by (unfold t; field; lra).
      set (g := h / var). assert (Hg : h = g * var) by (unfold g; field; lra).
      assert (Gb : Rabs g <= K). { unfold g, K, Rdiv. rewrite Rabs_mult, (Rabs_pos_eq (/ var)) by (left; apply Rinv_0_lt_compat; lra). apply Rmult_le_compat_r; [left; apply Rinv_0_lt_compat; lra|exact WB]. }
      assert (KN : 0 <= K * (n * u) <= K * / 1000000000) by (split; [apply Rmult_le_pos|apply Rmult_le_compat_l]; lra).
      assert (Et : Rabs (t - g) <= 14 * (K * (n * u))).
      { assert (E1 : (t - g) * y = (B2R a - h) - g * (y - var)) by (rewrite At, Hg; ring).
        assert (E2 : Rabs (g * (y - var)) <= K * (var * (9 * n * u))). { rewrite Rabs_mult. apply Rmult_le_compat; auto using Rabs_pos. apply Rabs_le. lra. }
        assert (E3 : Rabs ((t - g) * y) <= 13.6 * (n * u * W)). { rewrite E1. unfold Rminus at 1. eapply Rle_trans; [apply Rabs_triang|]. rewrite Rabs_Ropp, WK in *. lra. }
        rewrite Rabs_mult, (Rabs_pos_eq y) in E3 by lra. apply Rmult_le_reg_r with y; [lra|]. eapply Rle_trans; [exact E3|]. apply Rle_trans with (14 * (K * (n * u)) * (var * 0.99)); [rewrite WK in NW |- *; lra|]. apply Rmult_le_compat_l; lra. }
      assert (Tb : Rabs t <= 1.01 * K). { apply Rabs_le_inv in Et, Gb. apply Rabs_le. split; lra. }
      cbn [ndiv nopp EOps DoubleOps]. pose proof (Bdiv_correct 53 1024 _ _ mode_NE (Bopp a) w ltac:(fold y; lra)) as C. rewrite B2R_Bopp, is_finite_Bopp in C. fold y in C. replace (- B2R a / y) with (- t) in C by (unfold t; field; lra).
      rewrite rnd_small in C. 2: { apply Rle_trans with (bpow radix2 60); [|apply bpow_le; lia]. rewrite Rabs_Ropp. apply Rle_trans with 1000000000000000000; [lra|cbn; lra]. }
      destruct C as (Vr & Fr & _). split; [unfold finite; rewrite Fr; exact Fa|]. rewrite Vr.
      replace (- h / var) with (- g) by (unfold g; field; lra). rewrite Rabs_Ropp. split; [|split; assumption].
      pose proof (rnd_error (- t)) as R. rewrite Rabs_Ropp in R.
      assert (EK : eta <= K * u * / 100). { assert (/ 40000 <= K). { apply Rmult_le_reg_r with var; [lra|]. rewrite <- WK. pose proof var_X. assert (X * X <= 5000 * X) by (apply Rmult_le_compat_r; lra). unfold W. lra. } apply Rle_trans with (/ 40000 * u * / 100); [unfold eta, u; lra|]. apply Rmult_le_compat_r; [lra|]. apply Rmult_le_compat_r; lra. }
      assert (UT : u * Rabs t <= u * (1.01 * K)) by (apply Rmult_le_compat_l; lra).
      assert (UK : 2 * (u * K) <= n * (u * K)) by (apply Rmult_le_compat_r; [apply Rmult_le_pos|]; lra).
      apply Rabs_le_inv in R, Et. apply Rabs_le. split; lra.
    Qed.
  End Row.

  (** one coordinate of an ensemble, with either divisor *)
  Lemma gauss_near N (M : R) (q : double) (z : mat double) d X v : sum_contract fsum -> mc z = N -> B2R q = M -> INR N / 2 <= M <= INR N -> resolved M z d X ->
    plain_coord v -> let r := ndiv (nopp (nsub v (nmean (row z d)))) (nsq (nsqrt (ndiv (ssd (row z d)) q))) in let K := (Rabs (B2R v) + X) / spread M z d in
    finite r /\ Rabs (B2R r - exact_score M z d (B2R v)) <= 16 * (INR N * u) * K /\ Rabs (exact_score M z d (B2R v)) <= K /\ K <= 100000000000000000.
  Proof.
    intros Hs <- Vq HM (H1 & H2 & H3 & H4 & H5 & H6) (Fv & Bv). exact (score_near Hs (mc z) (fun n => get z d n) X H1 H2 H3 H4 q M Vq HM H5 H6 v Fv Bv).
  Qed.
  Lemma diff_near (r1 r2 : double) s1 s2 K1 K2 n : 2 <= n <= 1000000 -> finite r1 -> finite r2 -> Rabs (B2R r1 - s1) <= 16 * (n * u) * K1 -> Rabs (B2R r2 - s2) <= 16 * (n * u) * K2 ->
    Rabs s1 <= K1 -> Rabs s2 <= K2 -> K1 <= 100000000000000000 -> K2 <= 100000000000000000 ->
    finite (nsub r1 r2) /\ Rabs (B2R (nsub r1 r2) - (s1 - s2)) <= 17 * (n * u) * (K1 + K2).
  Proof.
    intros Hn F1 F2 E1 E2 B1 B2 C1 C2. pose proof uu as U. pose proof (Rabs_pos s1). pose proof (Rabs_pos s2).
    assert (NU : 0 <= n * u <= / 1000000000) by (split; [apply Rmult_le_pos; lra|]; apply Rle_trans with (1000000 * u); [apply Rmult_le_compat_r; lra|unfold u; lra]).
    assert (G : forall K, 0 <= K -> 0 <= n * u * K <= / 1000000000 * K /\ 2 * (u * K) <= n * u * K). { intros K PK. split; [split; [apply Rmult_le_pos; lra|apply Rmult_le_compat_r; lra]|]. rewrite Rmult_assoc. apply Rmult_le_compat_r; [apply Rmult_le_pos|]; lra. }
    pose proof (G K1 ltac:(lra)) as (G1 & G1'). pose proof (G K2 ltac:(lra)) as (G2 & G2'). clear G.
    assert (W : Rabs (B2R r1 - B2R r2) <= 1.01 * (K1 + K2)). { apply Rabs_le_inv in E1, E2, B1, B2. apply Rabs_le. split; lra. }
    cbn [nsub EOps DoubleOps]. pose proof (Bminus_correct 53 1024 _ _ mode_NE r1 r2 F1 F2) as C. rewrite rnd_small in C.
    2: { apply Rle_trans with (bpow radix2 60); [|apply bpow_le; lia]. apply Rle_trans with 1000000000000000000; [lra|cbn; lra]. }
    destruct C as (V & F & _). split; [exact F|]. destruct (minus_rel r1 r2) as (e & He & Re). rewrite V, Re.
    assert (Q : Rabs ((B2R r1 - B2R r2) * e) <= 1.01 * (K1 + K2) * u) by (rewrite Rabs_mult; apply Rmult_le_compat; auto using Rabs_pos).
    apply Rabs_le_inv in E1, E2, Q. apply Rabs_le. split; lra.
  Qed.

  Section Obj.
    Context {S : Type} (E : Ext double S) (Hs : sum_contract fsum) (o : obj double) (dim N k : nat) (A : arr3 double) (Hc : consistent o dim N k) (HF : forward_of o A).
    Lemma slices j : (j < k)%nat -> mc (slice A j) = N /\ mc (slice (o_B o) j) = N.
    Proof.
      intro Hj. pose proof Hc as (_ & _ & HZ & HB & HT). assert (HA : has_shape A dim N k).
      { unfold forward_of in HF. destruct (p_reweight (o_par o) && p_brown (o_par o)); [|now subst A]. destruct (HT eq_refl) as (Zt & Q & HZt). rewrite HF in Q. now injection Q as <-. }
      apply has_shape_sh in HA, HB. destruct (sh_slice _ _ _ _ j HA Hj) as (_ & _ & CA). destruct (sh_slice _ _ _ _ j HB Hj) as (_ & _ & CB). auto.
    Qed.

    (** C84.  First six or last five indices, both ensembles resolved: the control that double precision returns is finite and within
        17 N 2^-53 ((|x|+Xb)/var_b + (|x|+Xa)/var_a) of the exact difference of the two scores *)
    Theorem C84_accuracy gx ti j sq : (1 <= N)%nat -> selects k ti j -> edge k ti -> (dim <= mc gx)%nat ->
      exists v, calculate_u E o gx ti sq = (Ok v, sq) /\ mr v = mc gx /\ mc v = mr gx /\
        forall d i Xb Xa, (d < dim)%nat -> (i < mr gx)%nat -> plain_coord (get gx i d) ->
          let b := slice (o_B o) j in let a := slice A j in let x := B2R (get gx i d) in let M := INR N in
          resolved M b d Xb -> resolved M a d Xa ->
          finite (get v d i) /\ Rabs (B2R (get v d i) - (exact_score M b d x - exact_score M a d x)) <= 17 * (M * u) * ((Rabs x + Xb) / spread M b d + (Rabs x + Xa) / spread M a d).
    Proof.
      intros HN Hsel He Hm. destruct (slices j ltac:(apply Hsel)) as (CA & CB). destruct (C21_gaussian_window E o dim N k Hc A HF gx ti j sq HN Hsel He Hm) as (v & V1 & V2 & V3 & V4 & _).
      exists v. split; [exact V1|]. split; [exact V2|]. split; [exact V3|]. intros d i Xb Xa Hd Hi Hp b a x M Rb Ra. rewrite (V4 d i Hd Hi).
      pose proof Ra as (N2 & NB & _). unfold a in N2, NB. rewrite CA in N2, NB. fold M in NB. assert (M2 : 2 <= M) by (replace 2 with (INR 2) by (cbn; ring); now apply le_INR).
      assert (NZ : (Z.of_nat N < 9007199254740992)%Z) by (apply lt_IZR; rewrite <- INR_IZR_INZ; fold M; lra).
      destruct (nofnat_ex fexp fsin fcos fsum N NZ) as (Fq & Vq). fold M in Vq. unfold gauss_score, nstd. rewrite !row_length. fold a b. change (mc a = N) in CA. change (mc b = N) in CB. rewrite CA, CB.
      destruct (gauss_near N M (nofnat N) b d Xb (get gx i d) Hs CB Vq ltac:(fold M; lra) Rb Hp) as (A1 & A2 & A3 & A4).
      destruct (gauss_near N M (nofnat N) a d Xa (get gx i d) Hs CA Vq ltac:(fold M; lra) Ra Hp) as (B1 & B2 & B3 & B4). apply diff_near; auto; lra.
    Qed.

    (** the pytorch class: the same with N - 1 in the variance *)
    Theorem C84_torch_accuracy gx ti j sq : (1 <= N)%nat -> selects k ti j -> edge k ti -> (dim <= mc gx)%nat ->
      exists v, t_calculate_u E o gx ti sq = (Ok v, sq) /\ mr v = mc gx /\ mc v = mr gx /\
        forall d i Xb Xa, (d < dim)%nat -> (i < mr gx)%nat -> plain_coord (get gx i d) ->
          let b := slice (o_B o) j in let a := slice A j in let x := B2R (get gx i d) in let M := INR N - 1 in
          resolved M b d Xb -> resolved M a d Xa ->
          finite (get v d i) /\ Rabs (B2R (get v d i) - (exact_score M b d x - exact_score M a d x)) <= 17 * (INR N * u) * ((Rabs x + Xb) / spread M b d + (Rabs x + Xa) / spread M a d).
    Proof.
      intros HN Hsel He Hm. destruct (slices j ltac:(apply Hsel)) as (CA & CB). destruct (C61_torch_gaussian_window E o dim N k Hc A HF gx ti j sq HN Hsel He Hm) as (v & V1 & V2 & V3 & V4 & _).
      exists v. split; [exact V1|]. split; [exact V2|]. split; [exact V3|]. intros d i Xb Xa Hd Hi Hp b a x M Rb Ra. rewrite (V4 d i Hd Hi).
      pose proof Ra as (N2 & NB & _). unfold a in N2, NB. rewrite CA in N2, NB. assert (M2 : 2 <= INR N) by (replace 2 with (INR 2) by (cbn; ring); now apply le_INR).
      assert (NZ : (Z.of_nat N < 9007199254740992)%Z) by (apply lt_IZR; rewrite <- INR_IZR_INZ; lra).
      destruct (nofnat_ex fexp fsin fcos fsum N NZ) as (Fq & Vq). destruct dZ1 as (F1 & V1').
      assert (Vm : B2R (nsub (nofnat N) none1) = M).
      { cbn [nsub none1 EOps DoubleOps]. pose proof (Bminus_correct 53 1024 _ _ mode_NE (nofnat N) (dZ 1) Fq F1) as C. rewrite Vq, V1' in C.
        destruct (dZ_exact (Z.of_nat N - 1) ltac:(lia)) as (_ & Vz). rewrite minus_IZR, <- INR_IZR_INZ in Vz. pose proof (rnd_id (dZ (Z.of_nat N - 1))) as Rz. rewrite Vz in Rz. unfold M.
        rewrite rnd_small in C by (apply big; rewrite Rabs_pos_eq; lra). destruct C as (C & _). rewrite Rz in C. exact C. }
      unfold t_gauss_score, tstd. rewrite !row_length. fold a b. change (mc a = N) in CA. change (mc b = N) in CB. rewrite CA, CB.
      destruct (gauss_near N M _ b d Xb (get gx i d) Hs CB Vm ltac:(unfold M; lra) Rb Hp) as (A1 & A2 & A3 & A4).
      destruct (gauss_near N M _ a d Xa (get gx i d) Hs CA Vm ltac:(unfold M; lra) Ra Hp) as (B1 & B2 & B3 & B4). apply diff_near; auto; lra.
    Qed.
  End Obj.
End Edge.
