(** C71: what score_function_multid_seperate computes with kern='periodic'. *)
From Coq Require Import String List ZArith Reals Lra Lia Bool.
From Verif Require Import Base.Num Base.Py Base.Arr Lib.ArrLemmas Model.Ext Model.Cdist Model.Score Lib.ScoreLemmas.
From Verif Require Import Spec.RealSpec Spec.Contracts Spec.KernelSpec Spec.PeriodicSpec Lib.RSum Lib.RMat Lib.Gauss Lib.KernelForms Lib.Estimator Lib.EstForms Lib.KEst Lib.Periodic.
From Verif Require Import Run.PartialReal Run.RealExt.
Import ListNotations.
Local Open Scope string_scope.
Local Open Scope R_scope.

(** the values of a function at the rows of x *)
Definition at_rows (s : (nat -> R) -> R) (x : mat R) : list R := map (fun i => s (get x i)) (seq 0 (mr x)).
(** the penalty matrices  sign * k(z_i,z_j) + 0.001 [i=j] *)
Definition penalty (sign : R) (k : (nat -> R) -> (nat -> R) -> R) (z : nat -> nat -> R) (i j : nat) : R := sign * k (z i) (z j) + (if (i =? j)%nat then 0.001 else 0).
Lemma penalty_sym sign k z i j : (forall x y, k x y = k y x) -> penalty sign k z i j = penalty sign k z j i.
Proof. intro H. unfold penalty. now rewrite H, Nat.eqb_sym. Qed.
Lemma delta_pen (c : R) i j : c * delta i j = if (i =? j)%nat then c else 0.
Proof. unfold delta. destruct (i =? j)%nat; ring. Qed.

Section C71.
  Context {S : Type} (E : Ext R S) (HI : inv_contract E).

  (** one coordinate, one lengthscale: the estimator works.  It never meets a singular matrix, and both outputs are the periodic
      kernel expansion that minimises the regularised score-matching objective *)
  Theorem C71_one_dimension X Zp l C : mc X = 1%nat -> mc Zp = 1%nat -> l <> 0 -> - 0.001 < C -> apart 0 X Zp ->
    let k := perk 1 (fun _ => l) in
    exists a fn, kminimises k (penalty 1 k (get Zp)) (mr X) (mr Zp) (get X) (get Zp) 0 (C + 0.001) a /\
      score_function_multid_seperate E X Zp C "periodic" (LScal l) 1 = Ok (at_rows (kexpansion k (mr Zp) (get Zp) a) X) /\
      score_function_multid_seperate_fun E X Zp C "periodic" (LScal l) 1 = Ok fn /\
      forall x, mc x = 1%nat -> fn x = Ok (at_rows (kexpansion k (mr Zp) (get Zp) a) x).
  Proof.
    intros HX HZ Hl HC Ha k. set (z := get Zp). set (x := get X).
    assert (KV : forall A B : mat R, mc A = 1%nat -> mc B = 1%nat -> K_per A B (LScal l) = Ok (mk (mr A) (mr B) (fun i j => k (get A i) (get B j)))).
    { intros A B HA HB. rewrite (K_per_scal 1) by auto. f_equal. apply mk_ext. intros. apply perk_l1_1. }
    assert (GV : grdx_K_per X Zp (LScal l) 1 = Ok (mk (mr X) (mr Zp) (fun i j => - dperk 1 (fun _ => l) (x i) (z j) 0))).
    { change 1%Z with (Z.of_nat 0 + 1)%Z. rewrite (grdx_per_scal 1) by auto. f_equal. apply mk_ext. intros i j _ _. rewrite perk_l1_1. unfold dperk, x, z. ring. }
    assert (P0 : psd (mr Zp) (fun i j => k (z i) (z j))) by (apply perk_psd; auto).
    assert (PK : pd (mr Zp) (Kr (fun i j => k (z i) (z j)))) by (apply pd_plus; [exact P0|apply pd_scal; [lra|apply pd_delta]]).
    assert (PN : pd (mr Zp) (Nm (Kr (fun i j => k (z i) (z j))) (Ag X (fun i j => k (x i) (z j))) (C + 0.001))).
    { apply pd_plus; [apply (psd_gram (mr Zp) (mr X) (fun n m => k (x n) (z m)))|apply pd_scal; [lra|exact PK]]. }
    destruct (outcome_pd E HI X Zp (LScal l) C 1 K_per grdx_K_per (fun i j => k (x i) (z j)) (fun i j => k (z i) (z j)) _ (KV X Zp HX HZ) (KV Zp Zp HZ HZ) GV PK PN) as (a & HN & HS & HF).
    destruct (HF (Ksz_of "periodic" Zp (LScal l))) as (fn & F1 & F2 & _). exists a, fn.
    assert (QE : forall i j, Qk k (penalty 1 k z) (mr X) x z (C + 0.001) i j = Nm (Kr (fun i j => k (z i) (z j))) (Ag X (fun i j => k (x i) (z j))) (C + 0.001) i j).
    { intros. unfold Qk, Gk, Nm, Ag, Kr, penalty. rewrite delta_pen. ring. }
    split; [|split; [exact HS|split; [exact F1|]]].
    - apply (keq_minimises k (fun p q => dperk 1 (fun _ => l) p q 0)).
      + intros n m _ _. apply perk_partial; auto.
      + intros. apply penalty_sym. apply perk_sym.
      + eapply pd_ext; [|exact PN]. intros. symmetry. apply QE.
      + intros m Hm. rewrite (mv_ext_m _ _ (Nm (Kr (fun i j => k (z i) (z j))) (Ag X (fun i j => k (x i) (z j))) (C + 0.001))) by (intros; apply QE).
        rewrite (HN m Hm). f_equal. unfold Sg, Sk. rewrite <- sumn_opp. apply sumn_ext. intros. ring.
    - intros y Hy. apply (F2 y (fun i j => k (get y i) (z j))). change (Ksz_of "periodic" Zp (LScal l) y) with (K_per y Zp (LScal l)). now apply KV.
  Qed.
  (** so its function output has period 2 pi *)
  Theorem C71_period X Zp l C fn x x' : mc X = 1%nat -> mc Zp = 1%nat -> l <> 0 -> - 0.001 < C -> apart 0 X Zp ->
    score_function_multid_seperate_fun E X Zp C "periodic" (LScal l) 1 = Ok fn ->
    mc x = 1%nat -> mc x' = 1%nat -> mr x' = mr x -> (forall i, (i < mr x)%nat -> exists n : Z, get x' i 0 = get x i 0 + 2 * IZR n * PI) -> fn x' = fn x.
  Proof.
    intros HX HZ Hl HC Ha Hf Hx Hx' Hr Hs. destruct (C71_one_dimension X Zp l C HX HZ Hl HC Ha) as (a & fn' & _ & _ & F1 & F2). rewrite Hf in F1. injection F1 as <-.
    rewrite !F2 by auto. f_equal. unfold at_rows. rewrite Hr. apply map_seq_ext. intros i Hi. unfold kexpansion. apply sumn_ext. intros m Hm. f_equal.
    destruct (Hs i Hi) as (n & Hn). unfold perk. cbn [prodn]. f_equal. f_equal. f_equal.
    assert (SQ : forall u, -2 * sin (u / 2) ^ 2 = cos u - 1) by (intro; pose proof (half_angle u); lra). rewrite !SQ, Hn. f_equal.
    replace (get x i 0 + 2 * IZR n * PI - get Zp m 0) with (get x i 0 - get Zp m 0 + 2 * IZR n * PI) by ring.
    assert (CN : forall (q : nat) u, cos (u + 2 * INR q * PI) = cos u) by (intros; apply cos_period).
    destruct (Z_le_dec 0 n) as [Hp|Hp].
    - rewrite <- (CN (Z.to_nat n) (get x i 0 - get Zp m 0)). f_equal. f_equal. f_equal. f_equal. rewrite INR_IZR_INZ, Z2Nat.id; auto.
    - rewrite <- (CN (Z.to_nat (- n)) (get x i 0 - get Zp m 0 + 2 * IZR n * PI)). f_equal. rewrite INR_IZR_INZ, Z2Nat.id, opp_IZR by lia. ring.
  Qed.

  (** a list of lengthscales: the kernel is negated, so the penalty of the objective has the wrong sign.  The estimator either
      raises LinAlgError or returns the expansion at the unique stationary point of that objective; its function output uses another
      kernel, of the first two coordinates only, with the opposite sign, and raises IndexError for one-dimensional data *)
  Theorem C71_list X Zp ls C d : let D := List.length ls in mc X = D -> mc Zp = D -> (d < D)%nat -> nth d ls 0 <> 0 -> apart d X Zp ->
    let k := perk D (fun e => nth e ls 0) in
    score_function_multid_seperate E X Zp C "periodic" (LVec ls) (Z.of_nat d + 1) = Err LinAlgError \/
    exists a fn, kstationary k (penalty (-1) k (get Zp)) (mr X) (mr Zp) (get X) (get Zp) d (C + 0.001) a /\
      (forall b, kstationary k (penalty (-1) k (get Zp)) (mr X) (mr Zp) (get X) (get Zp) d (C + 0.001) b -> forall m, (m < mr Zp)%nat -> b m = a m) /\
      score_function_multid_seperate E X Zp C "periodic" (LVec ls) (Z.of_nat d + 1) = Ok (at_rows (kexpansion k (mr Zp) (get Zp) a) X) /\
      score_function_multid_seperate_fun E X Zp C "periodic" (LVec ls) (Z.of_nat d + 1) = Ok fn /\
      ((2 <= D)%nat -> forall x, mc x = D -> fn x = Ok (at_rows (fun p => - kexpansion (perk_out (nth 0 ls 0) (nth 1 ls 0)) (mr Zp) (get Zp) a p) x)) /\
      (D = 1%nat -> forall x, mc x = 1%nat -> fn x = Err IndexError).
  Proof.
    intros D HX HZ Hd Hl Ha k. set (z := get Zp). set (x := get X).
    assert (KV : forall A B : mat R, mc A = D -> mc B = D -> K_per A B (LVec ls) = Ok (mk (mr A) (mr B) (fun i j => - k (get A i) (get B j)))) by (intros; now apply K_per_vec).
    pose proof (grdx_per_vec D ls X Zp d HX HZ eq_refl Hd Hl Ha) as GV.
    destruct (outcome_gen E HI X Zp (LVec ls) C (Z.of_nat d + 1) K_per grdx_K_per _ _ _ (KV X Zp HX HZ) (KV Zp Zp HZ HZ) GV) as [(a & HN & HU & HS & HF)|(H & _)]; [|left; exact H].
    right. destruct (HF (Ksz_of "periodic" Zp (LVec ls))) as (fn & F1 & F2 & F3). exists (fun m => - a m), fn.
    set (Kz := Kr (fun i j => - k (get Zp i) (get Zp j))) in *. set (Az := Ag X (fun i j => - k (get X i) (get Zp j))) in *.
    assert (QE : forall i j, Qk k (penalty (-1) k z) (mr X) x z (C + 0.001) i j = Nm Kz Az (C + 0.001) i j).
    { intros. unfold Qk, Gk, Nm, Az, Kz, Ag, Kr, penalty. rewrite delta_pen. f_equal; [|unfold z; ring]. apply sumn_ext. intros. unfold x, z. ring. }
    assert (ML : forall u m, mv (mr Zp) (Qk k (penalty (-1) k z) (mr X) x z (C + 0.001)) u m = mv (mr Zp) (Nm Kz Az (C + 0.001)) u m) by (intros; apply mv_ext_m; intros; apply QE).
    assert (SL : forall m, Sk (fun p q => dperk D (fun e => nth e ls 0) p q d) (mr X) x z m = - Sg X (fun i j => dperk D (fun e => nth e ls 0) (get X i) (get Zp j) d) m).
    { intro m. unfold Sk, Sg. now rewrite Ropp_involutive. }
    assert (Hdk : forall n m, (n < mr X)%nat -> (m < mr Zp)%nat -> partial_at (fun p => k p (z m)) d (x n) (dperk D (fun e => nth e ls 0) (x n) (z m) d)) by (intros; now apply perk_partial).
    assert (Hsy : forall i j, penalty (-1) k z i j = penalty (-1) k z j i) by (intros; apply penalty_sym; apply perk_sym).
    split; [|split; [|split; [|split; [exact F1|split]]]].
    - apply (keq_stationary k (fun p q => dperk D (fun e => nth e ls 0) p q d)); auto. intros m Hm. rewrite ML, SL, mv_opp. pose proof (HN m Hm) as Q. fold Kz Az in Q. rewrite Q. ring.
    - intros b Hb m Hm. apply (stationary_keq k (fun p q => dperk D (fun e => nth e ls 0) p q d)) in Hb; auto.
      rewrite <- (HU (fun m => - b m)); [ring| |exact Hm]. intros j Hj. rewrite mv_opp, <- ML, (Hb j Hj), SL. ring.
    - unfold at_rows. etransitivity; [exact HS|]. f_equal. apply map_seq_ext. intros i Hi. unfold kexpansion. apply sumn_ext. intros. unfold z. ring.
    - intros H2 y Hy. rewrite (F2 y _ (Ksz_per_vec D ls y Zp Hy HZ eq_refl H2)). f_equal. unfold at_rows. apply map_seq_ext. intros i Hi. unfold kexpansion. rewrite <- sumn_opp. apply sumn_ext. intros. unfold z. ring.
    - intros H1 y Hy. apply F3. apply Ksz_per_1; auto. congruence.
  Qed.

  (** with one inducing point, evaluating the function output on the samples gives values of the opposite sign *)
  Theorem C71_opposite_sign X Zp ls C d v fn w : let D := List.length ls in mc X = D -> mc Zp = D -> mr Zp = 1%nat -> (d < D)%nat -> (2 <= D)%nat -> nth d ls 0 <> 0 -> apart d X Zp ->
    score_function_multid_seperate E X Zp C "periodic" (LVec ls) (Z.of_nat d + 1) = Ok v ->
    score_function_multid_seperate_fun E X Zp C "periodic" (LVec ls) (Z.of_nat d + 1) = Ok fn -> fn X = Ok w ->
    List.length v = mr X /\ List.length w = mr X /\ forall i, (i < mr X)%nat -> nth i v 0 * nth i w 0 < 0 \/ nth i v 0 = 0 /\ nth i w 0 = 0.
  Proof.
    intros D HX HZ HM Hd H2 Hl Ha Hv Hf Hw. destruct (C71_list X Zp ls C d HX HZ Hd Hl Ha) as [H|(a & fn' & _ & _ & V & F & G & _)]; [congruence|].
    rewrite Hv in V. injection V as ->. rewrite Hf in F. injection F as <-. rewrite (G H2 X HX) in Hw. injection Hw as <-. unfold at_rows. rewrite !map_length, seq_length. split; [auto|]. split; [auto|].
    intros i Hi. rewrite !nth_map_seq by auto. unfold kexpansion. rewrite HM. cbn [sumn]. rewrite !Rplus_0_l.
    pose proof (perk_pos D (fun e => nth e ls 0) (get X i) (get Zp 0)) as P. fold D.
    assert (Q : 0 < perk_out (nth 0 ls 0) (nth 1 ls 0) (get X i) (get Zp 0)) by (unfold perk_out; apply Rmult_lt_0_compat; apply exp_pos).
    destruct (Req_dec (a 0%nat) 0) as [->|Hn]; [right; split; ring|left].
    set (p := perk D _ _ _) in *. set (q := perk_out _ _ _ _) in *. assert (0 < a 0%nat * a 0%nat) by (destruct (Rtotal_order (a 0%nat) 0) as [?|[?|?]]; nra).
    assert (0 < p * q) by (now apply Rmult_lt_0_compat). nra.
  Qed.
  (** and the function output does not look at any coordinate beyond the second *)
  Theorem C71_ignores_coordinates X Zp ls C d v fn x x' : let D := List.length ls in mc X = D -> mc Zp = D -> (d < D)%nat -> (2 <= D)%nat -> nth d ls 0 <> 0 -> apart d X Zp ->
    score_function_multid_seperate E X Zp C "periodic" (LVec ls) (Z.of_nat d + 1) = Ok v ->
    score_function_multid_seperate_fun E X Zp C "periodic" (LVec ls) (Z.of_nat d + 1) = Ok fn ->
    mc x = D -> mc x' = D -> mr x' = mr x -> (forall i, (i < mr x)%nat -> get x' i 0 = get x i 0 /\ get x' i 1 = get x i 1) -> fn x' = fn x.
  Proof.
    intros D HX HZ Hd H2 Hl Ha Hv Hf Hx Hx' Hr Hs. destruct (C71_list X Zp ls C d HX HZ Hd Hl Ha) as [H|(a & fn' & _ & _ & _ & F & G & _)]; [congruence|].
    rewrite Hf in F. injection F as <-. rewrite !(G H2) by auto. f_equal. unfold at_rows. rewrite Hr. apply map_seq_ext. intros i Hi. f_equal. unfold kexpansion, perk_out. apply sumn_ext. intros m Hm.
    destruct (Hs i Hi) as (-> & ->). reflexivity.
  Qed.
End C71.

(** the stationary point need not be a minimum: with one sample and two inducing points the objective has none *)
Theorem C71_list_no_minimum ls (x z : nat -> nat -> R) lam d : let D := List.length ls in let k := perk D (fun e => nth e ls 0) in (d < D)%nat -> nth d ls 0 <> 0 -> 0 < lam ->
  k (z 0%nat) (z 1%nat) < 0.999 -> kunbounded k (penalty (-1) k z) 1 2 x z d lam.
Proof.
  intros D k Hd Hl Hlam Hk. set (p := k (x 0%nat) (z 0%nat)). set (q := k (x 0%nat) (z 1%nat)).
  apply (unbounded_dir k (fun p q => dperk D (fun e => nth e ls 0) p q d)) with (v := fun m => match m with O => q | _ => - p end).
  - intros. now apply perk_partial.
  - intros n Hn. replace n with 0%nat by lia. cbn [sumn]. fold p q. ring.
  - assert (Hp : 0 < p) by apply perk_pos. assert (Hq : 0 < q) by apply perk_pos. unfold qf. cbn [sumn]. unfold penalty. cbn [Nat.eqb].
    replace (k (z 0%nat) (z 0%nat)) with 1 by (symmetry; apply perk_refl). replace (k (z 1%nat) (z 1%nat)) with 1 by (symmetry; apply perk_refl).
    replace (k (z 1%nat) (z 0%nat)) with (k (z 0%nat) (z 1%nat)) by apply perk_sym. assert (Hk0 : 0 < k (z 0%nat) (z 1%nat)) by apply perk_pos.
    set (c := k (z 0%nat) (z 1%nat)) in *.
    assert (N : 0.999 * (p * p + q * q) - 2 * c * (p * q) > 0).
    { assert (0 < (0.999 - c) * (p * q)) by (apply Rmult_lt_0_compat; [lra|now apply Rmult_lt_0_compat]). pose proof (Rle_0_sqr (p - q)) as SQ. unfold Rsqr in SQ. lra. }
    match goal with |- lam * ?e < 0 => replace e with (- (0.999 * (p * p + q * q) - 2 * c * (p * q))) by lra end. nra.
Qed.

(** *** cases in which it goes wrong *)
Lemma sin_half_pi : sin (PI / 2) = 1. Proof. apply sin_PI2. Qed.
(** LinAlgError does happen: one coordinate, two inducing points, any sample apart from them and any C *)
Theorem C71_list_singular {S} (E : Ext R S) : inv_contract E -> exists (Zp : mat R) l, mc Zp = 1%nat /\ mr Zp = 2%nat /\ l <> 0 /\
  forall X C, mc X = 1%nat -> apart 0 X Zp -> score_function_multid_seperate E X Zp C "periodic" (LVec [l]) 1 = Err LinAlgError.
Proof.
  intro HI. set (L := - ln 0.999). assert (HL : 0 < L). { unfold L. assert (ln 0.999 < ln 1) by (apply ln_increasing; lra). rewrite ln_1 in *. lra. }
  set (l := sqrt (2 / L)). assert (H2 : 0 < 2 / L) by (apply Rdiv_lt_0_compat; lra). assert (Hl2 : l ^ 2 = 2 / L) by (unfold l; cbn; rewrite Rmult_1_r; apply sqrt_sqrt; lra).
  assert (Hl : l <> 0) by (intro H; rewrite H in Hl2; cbn in Hl2; lra).
  exists (mk 2 1 (fun i _ => match i with O => 0 | _ => PI end)), l. split; [reflexivity|]. split; [reflexivity|]. split; [exact Hl|]. intros X C HX Ha. set (Zp := mk 2 1 _) in *.
  set (k := perk 1 (fun e => nth e [l] 0)).
  destruct (prep_gen E HI X Zp (LVec [l]) 1 K_per grdx_K_per _ _ _ (K_per_vec 1 [l] X Zp HX eq_refl eq_refl) (K_per_vec 1 [l] Zp Zp eq_refl eq_refl eq_refl)
    (grdx_per_vec 1 [l] X Zp 0 HX eq_refl eq_refl ltac:(lia) Hl Ha)) as [(Ki & HK & _)|(HP & _)].
  - exfalso. fold k in HK. assert (V : forall i j, (i < 2)%nat -> (j < 2)%nat -> Kr (fun i j => - k (get Zp i) (get Zp j)) i j = - 0.999).
    { assert (K01 : k (get Zp 0) (get Zp 1) = 0.999).
      { unfold k, perk. cbn [prodn nth]. unfold Zp. rewrite !get_mk by lia. replace ((0 - PI) / 2) with (- (PI / 2)) by lra. rewrite sin_neg, sin_half_pi, Rmult_1_l, Hl2.
        replace (-2 * (- (1)) ^ 2 / (2 / L)) with (ln 0.999) by (unfold L; field; unfold L in HL; lra). apply exp_ln. lra. }
      intros i j Hi Hj. unfold Kr, delta. destruct i as [|[|i]]; [| |lia]; (destruct j as [|[|j]]; [| |lia]); cbn [Nat.eqb].
      - unfold k. rewrite perk_refl. lra.
      - rewrite K01. lra.
      - unfold k. rewrite perk_sym. fold k. rewrite K01. lra.
      - unfold k. rewrite perk_refl. lra. }
    change (mr Zp) with 2%nat in HK. destruct (HK 0%nat 0%nat ltac:(lia) ltac:(lia)) as (H00 & _). destruct (HK 1%nat 0%nat ltac:(lia) ltac:(lia)) as (H10 & _).
    cbn [sumn] in H00, H10. rewrite !V in H00 by lia. rewrite !V in H10 by lia. unfold delta in *. cbn [Nat.eqb] in *. lra.
  - unfold score_function_multid_seperate. change (K_of "periodic") with (@K_per R _). change (grdx_of "periodic") with (@grdx_K_per R _). rewrite HP. reflexivity.
Qed.
Lemma pd_1 A : 0 < A 0%nat 0%nat -> pd 1 A.
Proof. intros H v (i & Hi & Hv). replace i with 0%nat in Hv by lia. unfold qf. cbn [sumn]. assert (0 < v 0%nat * v 0%nat) by (destruct (Rtotal_order (v 0%nat) 0) as [?|[?|?]]; [nra|lra|nra]). nra. Qed.
(** one lengthscale for two coordinates: the gradient of another kernel is used.  Here the best estimate is 0, the code returns something else *)
Theorem C71_single_lengthscale {S} (E : Ext R S) C : inv_contract E -> - 0.001 < C -> exists (X Zp : mat R) v, mc X = 2%nat /\ mc Zp = 2%nat /\ apart 0 X Zp /\
  score_function_multid_seperate E X Zp C "periodic" (LScal 1) 1 = Ok [v] /\ v <> 0 /\
  kminimises (perk_l1 2 1) (penalty 1 (perk_l1 2 1) (get Zp)) 1 1 (get X) (get Zp) 0 (C + 0.001) (fun _ => 0).
Proof.
  intros HI HC. set (X := mk (T := R) 1 2 (fun _ _ => PI / 2)). set (Zp := mk (T := R) 1 2 (fun _ _ => 0)). pose proof PI_RGT_0 as HPI.
  assert (Ha : apart 0 X Zp). { intros i j Hi Hj. change (mr X) with 1%nat in Hi. change (mr Zp) with 1%nat in Hj. unfold X, Zp. rewrite !get_mk by lia. lra. }
  set (k := perk_l1 2 1). assert (KX : k (get X 0) (get Zp 0) = exp (-2)).
  { unfold k, perk_l1. cbn [sumn]. unfold X, Zp. rewrite !get_mk by lia. rewrite Rminus_0_r, Rabs_right by lra. replace ((0 + PI / 2 + PI / 2) / 2) with (PI / 2) by lra. rewrite sin_half_pi. f_equal. lra. }
  assert (KZ : k (get Zp 0) (get Zp 0) = 1).
  { unfold k, perk_l1. cbn [sumn]. rewrite !Rminus_eq_0, Rabs_R0. replace ((0 + 0 + 0) / 2) with 0 by lra. rewrite sin_0. replace (-2 * 0 ^ 2 / 1 ^ 2) with 0 by lra. apply exp_0. }
  pose proof (exp_pos (-2)) as HE.
  assert (PK : pd (mr Zp) (Kr (fun i j => k (get Zp i) (get Zp j)))). { apply pd_1. unfold Kr. rewrite KZ. unfold delta. cbn [Nat.eqb]. lra. }
  assert (PN : pd (mr Zp) (Nm (Kr (fun i j => k (get Zp i) (get Zp j))) (Ag X (fun i j => k (get X i) (get Zp j))) (C + 0.001))).
  { apply pd_1. unfold Nm, Kr, Ag. change (mr X) with 1%nat. cbn [sumn]. rewrite KX, KZ. unfold delta. cbn [Nat.eqb]. nra. }
  destruct (outcome_pd E HI X Zp (LScal 1) C 1 K_per grdx_K_per _ _ _ (K_per_scal 2 1 X Zp eq_refl eq_refl) (K_per_scal 2 1 Zp Zp eq_refl eq_refl)
    (grdx_per_scal 2 1 X Zp 0 eq_refl eq_refl ltac:(lia) R1_neq_R0 Ha) PK PN) as (a & HN & HS & _). fold k in HN, HS.
  exists X, Zp, (a 0%nat * exp (-2)). split; [reflexivity|]. split; [reflexivity|]. split; [exact Ha|]. split; [|split].
  - etransitivity; [exact HS|]. change (mr X) with 1%nat. change (mr Zp) with 1%nat. cbn [seq map sumn]. now rewrite KX, Rplus_0_l.
  - specialize (HN 0%nat ltac:(change (mr Zp) with 1%nat; lia)). unfold mv, Nm, Kr, Ag, Sg in HN. change (mr X) with 1%nat in HN. change (mr Zp) with 1%nat in HN. cbn [sumn] in HN. rewrite KX, KZ in HN.
    unfold delta in HN. cbn [Nat.eqb] in HN. unfold X, Zp in HN. rewrite !get_mk in HN by lia. rewrite Rminus_0_r, sin_half_pi in HN.
    intro Hz. assert (Ha0 : a 0%nat = 0) by (apply Rmult_integral in Hz; destruct Hz; lra). rewrite Ha0 in HN. lra.
  - assert (QE : forall i j, Qk k (penalty 1 k (get Zp)) 1 (get X) (get Zp) (C + 0.001) i j = Nm (Kr (fun i j => k (get Zp i) (get Zp j))) (Ag X (fun i j => k (get X i) (get Zp j))) (C + 0.001) i j).
    { intros. unfold Qk, Gk, Nm, Ag, Kr, penalty. change (mr X) with 1%nat. rewrite delta_pen. ring. }
    apply (keq_minimises k (fun _ _ => 0)).
    + intros n m Hn Hm. replace n with 0%nat by lia. replace m with 0%nat by lia. unfold partial_at.
      assert (G0 : get X 0 0 = PI / 2) by (unfold X; rewrite get_mk by lia; reflexivity). rewrite G0.
      apply (dlim_ext (fun t => exp (cos (Rabs t + PI / 2) - 1))).
      { intro t. unfold k, perk_l1. f_equal. cbn [sumn]. unfold moved. cbn [Nat.eqb]. unfold X, Zp. rewrite !get_mk by lia. rewrite !Rminus_0_r, Rplus_0_l, (Rabs_right (PI / 2)) by lra.
        pose proof (half_angle (Rabs t + PI / 2)). lra. }
      assert (HU : derivable_pt_lim (fun t => cos (Rabs t + PI / 2) - 1) (PI / 2) 0).
      { apply (dlim_val _ _ (- sin (Rabs (PI / 2) + PI / 2) * (1 + 0) - 0)).
        { rewrite Rabs_right by lra. replace (PI / 2 + PI / 2) with PI by lra. rewrite sin_PI. lra. }
        apply (derivable_pt_lim_minus (fun t => cos (Rabs t + PI / 2)) (fct_cte 1)); [|apply derivable_pt_lim_const].
        apply (derivable_pt_lim_comp (fun t => Rabs t + PI / 2) cos); [|apply derivable_pt_lim_cos].
        apply (derivable_pt_lim_plus Rabs (fct_cte (PI / 2))); [apply Rabs_derive_1; lra|apply derivable_pt_lim_const]. }
      apply dlim_exp in HU. eapply dlim_val; [|exact HU]. ring.
    + intros. apply penalty_sym. intros. unfold k, perk_l1. f_equal. f_equal. f_equal. f_equal. f_equal. f_equal. apply sumn_ext. intros. apply Rabs_minus_sym.
    + eapply pd_ext; [|exact PN]. intros. symmetry. apply QE.
    + intros m Hm. unfold Sk. cbn [sumn]. unfold mv. cbn [sumn]. ring.
Qed.

(** *** undefined results: a sample that shares the chosen coordinate with an inducing point (0/0 in the gradient) spoils the whole output *)
Section Undef.
  Context {S : Type} (E : Ext (option R) S).
  Lemma psum_none l : In None l -> fold_right (lift2 Rplus) (Some 0) l = None.
  Proof. induction l as [|a l IH]; cbn; [tauto|]. intros [ -> | H]; [reflexivity|]. rewrite IH by auto. now destruct a. Qed.
  Lemma grdx_per_undefined x y l d D G i j : mc x = D -> mc y = D -> (d < D)%nat -> (i < mr x)%nat -> (j < mr y)%nat -> get x i d = get y j d ->
    grdx_K_per x y l (Z.of_nat d + 1) = Ok G -> mr G = mr x /\ mc G = mr y /\ get G i j = None.
  Proof.
    intros Hx Hy Hd Hi Hj He H. unfold grdx_K_per in H. cbv zeta in H. replace (Z.of_nat d + 1 - 1)%Z with (Z.of_nat d) in H by lia.
    unfold diffs_at in H. rewrite Hx, Hy, bok_refl, bdim_refl, pyidx_nat in H by auto. cbn [rbind] in H. rewrite !bidx_lt in H by auto. unfold smul in H. rewrite !mmap1_mk in H.
    assert (FIN : forall p3 l2 G, is p3 (mr x) (mr y) -> (let! r := bc2 ndiv p3 (mk (mr x) (mr y) (fun i j => nmul l2 (nabs (nsub (get x i d) (get y j d))))) in Ok (mopp r)) = Ok G ->
      mr G = mr x /\ mc G = mr y /\ get G i j = None).
    { intros p3 l2 G0 (_ & P1 & P2) HG. rewrite (bc2_same _ _ _ (mr x) (mr y)) in HG by auto. cbn [rbind] in HG. injection HG as <-. unfold mopp. rewrite mmap1_mk. split; [reflexivity|]. split; [reflexivity|].
      rewrite !get_mk by auto. rewrite He. assert (Q : forall u : option R, ndiv u (nmul l2 (nabs (nsub (get y j d) (get y j d)))) = None).
      { intro u. destruct (get y j d) as [r|]; cbn; [|destruct l2; reflexivity]. destruct l2 as [q|]; cbn; [|reflexivity].
        rewrite Rminus_eq_0, Rabs_R0, Rmult_0_r. destruct (Req_EM_T 0 0) as [_|n]; [reflexivity|exfalso; apply n; reflexivity]. }
      pose proof (Q (get p3 i j)) as Q1. cbn [ndiv nmul nabs nsub POps] in Q1. rewrite Q1. reflexivity. }
    destruct l as [l0|ls].
    - rewrite bc2_mk in H. cbn [rbind] in H. destruct (K_per x y (LScal l0)) as [k|] eqn:EK; cbn [rbind] in H; [|discriminate]. apply is_K_per in EK.
      destruct (bc2 nmul (mk _ _ _) k) as [p2|] eqn:E2; cbn [rbind] in H; [|discriminate]. eapply is_bc2 in E2; [|apply is_mk|exact EK].
      destruct (bc2 nmul p2 _) as [p3|] eqn:E3; cbn [rbind] in H; [|discriminate]. eapply is_bc2 in E3; [|exact E2|apply is_mk].
      cbn [lsq_at rbind] in H. rewrite mmap1_mk in H. eapply FIN; eauto.
    - destruct (K_per x y (LVec ls)) as [k|] eqn:EK; cbn [rbind] in H; [|discriminate]. apply is_K_per in EK.
      destruct (bc2 nmul (mmap1 _ k) _) as [p1|] eqn:E1; cbn [rbind] in H; [|discriminate]. eapply is_bc2 in E1; [|apply is_mmap1; exact EK|apply is_mk].
      destruct (bc2 nmul p1 _) as [p2|] eqn:E2; cbn [rbind] in H; [|discriminate]. eapply is_bc2 in E2; [|exact E1|apply is_mk].
      destruct (bc2 nmul p2 _) as [p3|] eqn:E3; cbn [rbind] in H; [|discriminate]. eapply is_bc2 in E3; [|exact E2|apply is_mk].
      destruct (lsq_at (LVec ls) (Z.of_nat d)) as [l2|]; cbn [rbind] in H; [|discriminate]. rewrite mmap1_mk in H. eapply FIN; eauto.
  Qed.
  Lemma mmul_undefined (b s R0 : mat (option R)) m : mmul b s = Ok R0 -> (m < mr s)%nat -> mc s = 1%nat -> get s m 0 = None -> forall v, In v (flat R0) -> v = None.
  Proof.
    intros H Hm Hc Hn v Hv. unfold mmul in H. destruct (Nat.eqb_spec (mc b) (mr s)) as [Hd|]; [|discriminate]. injection H as <-. unfold flat in Hv. rewrite Hc in Hv. rewrite col_mk in Hv by lia.
    apply in_map_iff in Hv. destruct Hv as (i & <- & _). apply psum_none. apply in_map_iff. exists m. split; [|apply in_seq; lia]. rewrite Hn. now destruct (get b i m).
  Qed.
  Theorem C71_undefined X Zp C l d D i j : mc X = D -> mc Zp = D -> (d < D)%nat -> (i < mr X)%nat -> (j < mr Zp)%nat -> get X i d = get Zp j d ->
    (forall v, score_function_multid_seperate E X Zp C "periodic" l (Z.of_nat d + 1) = Ok v -> List.length v = mr X /\ forall u, In u v -> u = None) /\
    (forall fn x v, score_function_multid_seperate_fun E X Zp C "periodic" l (Z.of_nat d + 1) = Ok fn -> fn x = Ok v -> List.length v = mr x /\ forall u, In u v -> u = None).
  Proof.
    intros HX HZ Hd Hi Hj He.
    assert (PR : forall K_xz Ki A s, prep E (K_of "periodic") (grdx_of "periodic") X Zp l (Z.of_nat d + 1) = Ok (K_xz, Ki, A, s) -> (j < mr s)%nat /\ mc s = 1%nat /\ get s j 0 = None).
    { intros K_xz Ki A s H. unfold prep in H. destruct (K_of _ X Zp l); cbn [rbind] in H; [|discriminate]. destruct (K_of _ Zp Zp l); cbn [rbind] in H; [|discriminate].
      destruct (reg_inv E _ _); cbn [rbind] in H; [|discriminate]. destruct (mmul _ _); cbn [rbind] in H; [|discriminate].
      change (grdx_of "periodic") with (@grdx_K_per (option R) _) in H. destruct (grdx_K_per X Zp l (Z.of_nat d + 1)) as [G|] eqn:EG; cbn [rbind] in H; [|discriminate]. injection H as _ _ _ <-.
      destruct (grdx_per_undefined X Zp l d D G i j HX HZ Hd Hi Hj He EG) as (G1 & G2 & G3). unfold sum0. cbn [mopp mmap1 mk mr mc]. split; [lia|]. split; [reflexivity|].
      rewrite get_mk by (rewrite ?G2; lia). apply psum_none. unfold col. apply in_map_iff. exists i. split; [|apply in_seq; cbn [mopp mmap1 mk mr]; lia]. unfold mopp. rewrite get_mmap1 by lia. now rewrite G3. }
    split.
    - intros v H. split; [eapply score_length; eauto|]. unfold score_function_multid_seperate in H. destruct (prep E _ _ X Zp l _) as [[[[K_xz Ki] A] s]|] eqn:Q; cbn [rbind] in H; [|discriminate].
      destruct (PR _ _ _ _ eq_refl) as (P1 & P2 & P3). unfold eval_at_samples in H. destruct (inner_inv E C (mr Zp) Ki A); cbn [rbind rmap] in H; [|discriminate].
      destruct (mmul (mopp K_xz) a); cbn [rbind rmap] in H; [|discriminate]. destruct (mmul a0 Ki) as [b|]; cbn [rbind rmap] in H; [|discriminate].
      destruct (mmul b s) as [r|] eqn:EM; cbn [rmap] in H; [|discriminate]. injection H as <-. eapply mmul_undefined; eauto.
    - intros fn x v H Hv. split; [eapply score_fun_length; eauto|]. unfold score_function_multid_seperate_fun in H. destruct (prep E _ _ X Zp l _) as [[[[K_xz Ki] A] s]|] eqn:Q; cbn [rbind] in H; [|discriminate].
      destruct (PR _ _ _ _ eq_refl) as (P1 & P2 & P3). injection H as <-. unfold eval_fun in Hv. destruct (Ksz_of "periodic" Zp l x); cbn [rbind rmap] in Hv; [|discriminate].
      destruct (inner_inv E C (mr Zp) Ki A); cbn [rbind rmap] in Hv; [|discriminate]. destruct (mmul a (mopp a0)); cbn [rbind rmap] in Hv; [|discriminate]. destruct (mmul a1 Ki) as [b|]; cbn [rbind rmap] in Hv; [|discriminate].
      destruct (mmul b s) as [r|] eqn:EM; cbn [rmap] in Hv; [|discriminate]. injection Hv as <-. eapply mmul_undefined; eauto.
  Qed.
End Undef.

(** *** concrete cases *)
Example W71_one : let X := mk (T := R) 3 1 (fun i _ => INR i) in let Zp := mk (T := R) 2 1 (fun i _ => INR i + 1/2) in
  exists a fn, kminimises (perk 1 (fun _ => 2)) (penalty 1 (perk 1 (fun _ => 2)) (get Zp)) 3 2 (get X) (get Zp) 0 (0.001 + 0.001) a /\
    score_function_multid_seperate_fun RealExt X Zp 0.001 "periodic" (LScal 2) 1 = Ok fn /\ exists v, fn X = Ok v /\ score_function_multid_seperate RealExt X Zp 0.001 "periodic" (LScal 2) 1 = Ok v /\ List.length v = 3%nat.
Proof.
  intros X Zp. destruct (C71_one_dimension RealExt (proj1 contracts_consistent) X Zp 2 0.001 eq_refl eq_refl ltac:(lra) ltac:(lra)) as (a & fn & H1 & H2 & H3 & H4).
  - intros i j Hi Hj. change (mr X) with 3%nat in Hi. change (mr Zp) with 2%nat in Hj. unfold X, Zp. rewrite !get_mk by lia. destruct i as [|[|[|]]]; [| | |lia]; (destruct j as [|[|]]; [| |lia]); cbn; lra.
  - exists a, fn. split; [exact H1|]. split; [exact H3|]. eexists. split; [apply H4; reflexivity|]. split; [exact H2|]. reflexivity.
Qed.
Example W71_list : let X := mk (T := R) 1 2 (fun _ _ => PI / 2) in let Zp := mk (T := R) 1 2 (fun _ _ => 0) in
  exists v fn w, score_function_multid_seperate RealExt X Zp 2 "periodic" (LVec [1; 1]) 1 = Ok v /\
    score_function_multid_seperate_fun RealExt X Zp 2 "periodic" (LVec [1; 1]) 1 = Ok fn /\ fn X = Ok w /\ nth 0 v 0 * nth 0 w 0 < 0.
Proof.
  intros X Zp. pose proof PI_RGT_0 as HPI. destruct contracts_consistent as (HI & _).
  assert (Ha : apart 0 X Zp). { intros i j Hi Hj. change (mr X) with 1%nat in Hi. change (mr Zp) with 1%nat in Hj. unfold X, Zp. rewrite !get_mk by lia. lra. }
  set (k := perk 2 (fun e => nth e [1; 1] 0)).
  assert (KX : 0 < k (get X 0) (get Zp 0) <= 1).
  { split; [apply perk_pos|]. unfold k. rewrite perk_exp. cbn [sumn nth]. rewrite <- exp_0. apply Rlt_le, exp_increasing. unfold X, Zp. rewrite !get_mk by lia.
    assert (0 < sin ((PI / 2 - 0) / 2)) by (apply sin_gt_0; lra). set (s := sin ((PI / 2 - 0) / 2)) in *. assert (0 < s * s) by (now apply Rmult_lt_0_compat). rewrite exp_0. replace (0 + -2 * s ^ 2 / 1 ^ 2 + -2 * s ^ 2 / 1 ^ 2) with (-4 * (s * s)) by field. lra. }
  assert (KZ : k (get Zp 0) (get Zp 0) = 1) by apply perk_refl.
  assert (SX : sin (get X 0 0 - get Zp 0 0) = 1) by (unfold X, Zp; rewrite !get_mk by lia; rewrite Rminus_0_r; apply sin_half_pi).
  set (q := k (get X 0) (get Zp 0)) in *. destruct KX as (KX0 & KX1).
  destruct (outcome_gen RealExt HI X Zp (LVec [1; 1]) 2 1 K_per grdx_K_per _ _ _ (K_per_vec 2 [1; 1] X Zp eq_refl eq_refl eq_refl) (K_per_vec 2 [1; 1] Zp Zp eq_refl eq_refl eq_refl)
    (grdx_per_vec 2 [1; 1] X Zp 0 eq_refl eq_refl eq_refl ltac:(lia) R1_neq_R0 Ha)) as [(a & HN & _ & HS & HF)|(_ & HN)]; fold k in HN.
  - fold k in HS. destruct (HF (Ksz_of "periodic" Zp (LVec [1; 1]))) as (fn & F1 & F2 & _).
    eexists. exists fn. eexists. split; [exact HS|]. split; [exact F1|]. split; [exact (F2 X _ (Ksz_per_vec 2 [1; 1] X Zp eq_refl eq_refl eq_refl ltac:(lia)))|].
    change (mr X) with 1%nat. change (mr Zp) with 1%nat. cbn [seq map nth sumn]. fold q. rewrite !Rplus_0_l.
    assert (Q : 0 < perk_out 1 1 (get X 0) (get Zp 0)) by (unfold perk_out; apply Rmult_lt_0_compat; apply exp_pos). set (r := perk_out 1 1 (get X 0) (get Zp 0)) in *.
    specialize (HN 0%nat ltac:(change (mr Zp) with 1%nat; lia)). unfold mv, Nm, Kr, Ag, Sg in HN. change (mr X) with 1%nat in HN. change (mr Zp) with 1%nat in HN. cbn [sumn] in HN. rewrite KZ in HN. fold q in HN.
    unfold delta, dperk in HN. fold k in HN. fold q in HN. cbn [Nat.eqb nth] in HN. rewrite SX in HN.
    assert (Hn : a 0%nat <> 0) by (intro Hz; rewrite Hz in HN; lra). assert (0 < a 0%nat * a 0%nat) by (destruct (Rtotal_order (a 0%nat) 0) as [?|[?|?]]; [nra|contradiction|nra]).
    assert (0 < q * r) by (apply Rmult_lt_0_compat; lra). nra.
  - exfalso. change (mr Zp) with 1%nat in HN. assert (HK : inverse_of 1 (Kr (fun i j => - k (get Zp i) (get Zp j))) (fun _ _ => / - 0.999)).
    { intros i j Hi Hj. replace i with 0%nat by lia. replace j with 0%nat by lia. cbn [sumn]. unfold Kr. rewrite KZ. unfold delta. cbn [Nat.eqb]. split; lra. }
    destruct HN as [HN|HN]; [apply HN; eauto|]. apply (HN _ HK). set (e := (2 + 0.001) + / - 0.999 * (q * q)). exists (fun _ _ => / e).
    assert (He : e <> 0) by (unfold e; nra). intros i j Hi Hj. replace i with 0%nat by lia. replace j with 0%nat by lia. cbn [sumn]. unfold mm, Ag, delta. change (mr X) with 1%nat. cbn [sumn Nat.eqb].
    fold q. replace ((2 + 0.001) * 1 + (0 + / - 0.999 * (0 + - q * - q))) with e by (unfold e; ring). split; field; exact He.
Qed.
(** the hypotheses of C71_undefined: using the samples as inducing points *)
Example W71_undefined {S} (E : Ext (option R) S) X C l v : (1 <= mr X)%nat -> (1 <= mc X)%nat ->
  score_function_multid_seperate E X X C "periodic" l 1 = Ok v -> List.length v = mr X /\ forall u, In u v -> u = None.
Proof. intros HR HC. change 1%Z with (Z.of_nat 0 + 1)%Z. apply (C71_undefined E X X C l 0 (mc X) 0 0); auto; lia. Qed.
