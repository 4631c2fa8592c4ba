(** C82, accuracy: the kernel entries computed in double precision are the exact Gaussians up to rounding. *)
From Coq Require Import String List ZArith Reals Bool Lia Lra Psatz Permutation.
From Flocq Require Import Core BinarySingleNaN Relative Mult_error.
From Verif Require Import Base.Num Base.Py Base.Arr Lib.ArrLemmas Lib.RSum Spec.RealSpec Model.Ext Model.Cdist Model.Score Model.ScoreTorch Lib.ScoreLemmas Run.Double Spec.DoubleSpec.
From Verif Require Import Lib.DoubleLemmas Run.DoubleExp Props.CdistProps Props.DoubleQueries Props.DoubleWeights Props.DoubleKernels.
Import ListNotations.
Local Open Scope R_scope.

Section Acc.
  Context (fexp fsin fcos : double -> double) (fsum : list double -> double).
  #[local] Instance AOps : NumOps double := DoubleOps fexp fsin fcos fsum.

  (** x approximates v >= 0 with relative error k and absolute error m *)
  Definition app (x : double) (v k m : R) : Prop := finite x /\ 0 <= B2R x /\ Rabs (B2R x - v) <= v * k + m.
  Lemma minus_rel (x y : double) : exists e, Rabs e <= u /\ rnd (B2R x - B2R y) = (B2R x - B2R y) * (1 + e).
  Proof.
    pose proof (rnd_plus_err x (Bopp y)) as (e & A & B). rewrite B2R_Bopp in B. exists e. split; [exact A|]. unfold Rminus at 1 2. exact B.
  Qed.
  Lemma sq_app (a b : double) : finite a -> finite b -> Rabs (B2R a) <= 10000 -> Rabs (B2R b) <= 10000 ->
    app (nsq (nsub a b)) ((B2R a - B2R b) ^ 2) (4 * u) eta.
  Proof.
    intros Fa Fb Ba Bb. unfold nsq. cbn [nsub nmul AOps DoubleOps]. assert (D : Rabs (B2R a - B2R b) <= 20000). { apply Rabs_le_inv in Ba, Bb. apply Rabs_le. lra. }
    pose proof (Bminus_correct 53 1024 _ _ mode_NE a b Fa Fb) as C. rewrite rnd_small in C by (apply big; lra). destruct C as (V & F & _). set (d := Bminus mode_NE a b) in *.
    destruct (minus_rel a b) as (e & He & Re). rewrite Re in V. set (t := B2R a - B2R b) in *. apply Rabs_le_inv in D, He. assert (U : 0 < u <= / 1000000000) by (unfold u; lra).
    assert (Q : B2R d * B2R d = t ^ 2 * (1 + e) ^ 2) by (rewrite V; ring). assert (T : 0 <= t ^ 2 <= 400000000) by nra.
    assert (E1 : 1 - 2 * u <= (1 + e) ^ 2 <= 1 + 2 * u + u * u) by nra. assert (P : 0 <= B2R d * B2R d <= 1000000000) by nra.
    destruct (mult_near d d F F) as (Fm & N); [rewrite Rabs_pos_eq; lra|]. rewrite (Rabs_pos_eq (B2R d * B2R d)) in N by lra.
    pose proof (Bmult_correct 53 1024 _ _ mode_NE d d) as M. rewrite rnd_small in M by (apply big; rewrite Rabs_pos_eq; lra). destruct M as (M & _ & _).
    split; [exact Fm|]. split; [rewrite M; apply rnd_nonneg; lra|]. apply Rabs_le_inv in N. rewrite Q in N. set (s := t ^ 2) in *. set (w := (1 + e) ^ 2) in *.
    apply Rabs_le. assert (s * (1 - 2 * u) <= s * w <= s * (1 + 2 * u + u * u)) by (split; apply Rmult_le_compat_l; lra).
    assert (0 <= s * u) by (apply Rmult_le_pos; lra). assert (0 <= s * u * u <= s * u * / 1000000000) by (split; [apply Rmult_le_pos; lra|apply Rmult_le_compat_l; lra]).
    assert (0 <= s * u * u * u <= s * u * / 1000000000). { split; [apply Rmult_le_pos; lra|]. apply Rle_trans with (s * u * u * 1); [apply Rmult_le_compat_l; lra|lra]. }
    assert (u * (s * w) <= u * (s * (1 + 2 * u + u * u))) by (apply Rmult_le_compat_l; lra). assert (0 <= u * (s * w)) by (apply Rmult_le_pos; [lra|apply Rmult_le_pos; [lra|unfold w; nra]]). split; nra.
  Qed.
  Lemma sum_app (n : nat) (f : nat -> double) (V : nat -> R) k m : sum_contract fsum -> (n <= 1000)%nat -> 0 <= k <= / 1000 -> 0 <= m <= / 1000 ->
    (forall d, (d < n)%nat -> 0 <= V d <= 1000000000 /\ app (f d) (V d) k m) -> app (nsum (map f (seq 0 n))) (sumn n V) (k + 3 * INR n * u) (2 * INR n * m).
  Proof.
    intros Hs Hn Hk Hm H. cbn [nsum AOps DoubleOps]. pose proof (Hs (map f (seq 0 n))) as TS. set (s := fsum (map f (seq 0 n))) in *.
    assert (NN : forall z, In z (map f (seq 0 n)) -> nn z /\ finite z).
    { intros z Hz. apply in_map_iff in Hz. destruct Hz as (d & <- & Hd). apply in_seq in Hd. destruct (H d ltac:(lia)) as (_ & A & B & _). split; [|exact A]. split; [now apply fin_number|]. now rewrite ext_fin by auto. }
    pose proof (pos_INR n) as P. assert (N3 : INR n <= 1000) by (replace 1000 with (INR 1000) by (rewrite INR_IZR_INZ; reflexivity); now apply le_INR).
    assert (U : 0 < u <= / 1000000000000) by (unfold u; lra). pose proof (gam_lin n ltac:(unfold u; nra)) as G. pose proof (gam_ge n) as G1.
    set (X := sumn n (fun d => B2R (f d))). set (Y := sumn n V).
    assert (XY : Rabs (X - Y) <= Y * k + INR n * m).
    { unfold X, Y. clear -H Hm. assert (L : forall c, (c <= n)%nat -> Rabs (sumn c (fun d => B2R (f d)) - sumn c V) <= sumn c V * k + INR c * m); [|now apply L]. induction c as [|c IH]; intro Hc; [cbn; rewrite Rminus_0_r, Rabs_R0; lra|].
      specialize (IH ltac:(lia)). rewrite S_INR. cbn [sumn]. destruct (H c ltac:(lia)) as (_ & _ & _ & A). apply Rabs_le_inv in A, IH. apply Rabs_le. lra. }
    assert (Y0 : 0 <= Y) by (apply sumn_ge0; intros d Hd; apply (H d Hd)).
    assert (YB : Y <= INR n * 1000000000) by (unfold Y; rewrite <- sumn_const; apply sumn_le; intros d Hd; apply (H d Hd)).
    assert (X0 : 0 <= X) by (apply sumn_ge0; intros d Hd; apply (H d Hd)).
    assert (XB : X <= 1000000000000000) . { apply Rabs_le_inv in XY. nra. }
    assert (Fs : finite s). { apply (tree_fin _ _ TS NN). rewrite total_seq, map_length, seq_length. fold X. apply Rle_trans with (bpow radix2 60); [|apply bpow_le; lia]. apply Rle_trans with (1000000000000000 * 2); [apply Rmult_le_compat; try lra; unfold u in *; nra|cbn; lra]. }
    destruct (tree_nn _ _ TS ltac:(intros z Hz; now apply NN)) as ((_ & S0) & _ & C & _). destruct (C Fs) as (_ & T). rewrite ext_fin in S0 by auto. rewrite total_seq, map_length, seq_length in T. fold X in T.
    split; [exact Fs|]. split; [exact S0|]. apply Rabs_le_inv in XY. set (q := 2 * INR n * u) in *. assert (Q : 0 <= q <= / 100000000) by (unfold q, u in *; nra).
    assert (Xq : X * (1 - q) <= B2R s <= X * (1 + q)). { split; [eapply Rle_trans; [|apply T]|eapply Rle_trans; [apply T|]]; apply Rmult_le_compat_l; lra. }
    replace (3 * INR n * u) with (3 / 2 * q) by (unfold q; field). set (nm := INR n * m) in *. replace (2 * INR n * m) with (2 * nm) by (unfold nm; ring). assert (0 <= nm) by (apply Rmult_le_pos; lra).
    assert (0 <= Y * k <= Y * / 1000) by (split; [apply Rmult_le_pos; lra|apply Rmult_le_compat_l; lra]).
    assert (A1 : X * q <= (Y * (1 + / 1000) + nm) * q) by (apply Rmult_le_compat_r; lra). assert (A2 : nm * q <= nm * / 100000000) by (apply Rmult_le_compat_l; lra). assert (0 <= Y * q) by (apply Rmult_le_pos; lra).
    apply Rabs_le. split; lra.
  Qed.
  (** s / q for an approximation s of S and q of L *)
  Lemma quot_app (s q : double) S L k m : app s S k m -> finite q -> 0 < L -> Rabs (B2R q - L) <= 2 * u * L -> 0 <= S -> S / L <= 1000000 -> 0 <= k <= / 1000 -> 0 <= m -> m / L <= 1 ->
    0 < B2R q /\ Rabs (B2R s / B2R q - S / L) <= S / L * (k + 4 * u) + 2 * (m / L) /\ Rabs (rnd (B2R s / B2R q) - S / L) <= S / L * (k + 6 * u) + 3 * (m / L) + eta /\ 0 <= B2R s / B2R q <= 2000000.
  Proof.
    intros (Fs & Ps & As) Fq PL Bq PS SL Hk Pm Hm. assert (U : 0 < u <= / 1000000000000) by (unfold u; lra). apply Rabs_le_inv in Bq, As.
    assert (Pq : 0 < B2R q) by nra. split; [exact Pq|].
    set (v := S / L) in *. set (a := m / L) in *. assert (Sv : S = v * L) by (unfold v; field; lra). assert (Ma : m = a * L) by (unfold a; field; lra).
    assert (Pv : 0 <= v) by (apply Rmult_le_pos; [lra|left; now apply Rinv_0_lt_compat]). assert (Pa : 0 <= a) by (apply Rmult_le_pos; [lra|left; now apply Rinv_0_lt_compat]).
    set (z := B2R s / B2R q). assert (Zs : B2R s = z * B2R q) by (unfold z; field; lra). assert (Pz : 0 <= z) by (apply Rmult_le_pos; [lra|left; now apply Rinv_0_lt_compat]).
    assert (Up : z * (1 - 2 * u) <= v * (1 + k) + a). { apply Rmult_le_reg_r with L; [lra|]. assert (z * (L - 2 * u * L) <= z * B2R q) by (apply Rmult_le_compat_l; lra). rewrite Sv, Ma in As. lra. }
    assert (Lo : v * (1 - k) - a <= z * (1 + 2 * u)). { apply Rmult_le_reg_r with L; [lra|]. assert (z * B2R q <= z * (L + 2 * u * L)) by (apply Rmult_le_compat_l; lra). rewrite Sv, Ma in As. lra. }
    assert (vk : 0 <= v * k <= v * / 1000) by (split; [apply Rmult_le_pos; lra|apply Rmult_le_compat_l; lra]).
    assert (zB : z <= (v * (1 + k) + a) * (1 + 3 * u)).
    { apply Rmult_le_reg_r with (1 - 2 * u); [lra|]. eapply Rle_trans; [exact Up|]. rewrite Rmult_assoc. rewrite <- (Rmult_1_r (v * (1 + k) + a)) at 1. apply Rmult_le_compat_l; [lra|nra]. }
    assert (vu : 0 <= v * u) by (apply Rmult_le_pos; lra). assert (au : 0 <= a * u <= a * / 1000000000000) by (split; [apply Rmult_le_pos; lra|apply Rmult_le_compat_l; lra]).
    assert (vku : 0 <= v * k * u <= v * u * / 1000). { split; [apply Rmult_le_pos; lra|]. replace (v * k * u) with (v * u * k) by ring. apply Rmult_le_compat_l; lra. }
    assert (zub : z * u <= (v * (1 + k) + a) * (1 + 3 * u) * u) by (apply Rmult_le_compat_r; lra).
    assert (zuu : z * u <= 2 * (v * u) + 2 * (a * u)).
    { eapply Rle_trans; [exact zub|]. replace ((v * (1 + k) + a) * (1 + 3 * u) * u) with ((v * (1 + k) + a) * u * (1 + 3 * u)) by ring. apply Rle_trans with ((v * (1 + k) + a) * u * (1 + / 100)); [apply Rmult_le_compat_l; [apply Rmult_le_pos; lra|lra]|lra]. }
    assert (R1 : Rabs (z - v) <= v * (k + 4 * u) + 2 * a). { apply Rabs_le. split; lra. }
    split; [exact R1|]. assert (zz : 0 <= z <= 2000000). { split; [exact Pz|]. eapply Rle_trans; [exact zB|]. apply Rle_trans with ((v * (1 + k) + a) * 1.5); [apply Rmult_le_compat_l; lra|lra]. }
    split; [|exact zz]. pose proof (rnd_error z) as E. rewrite (Rabs_pos_eq z) in E by lra. apply Rabs_le_inv in E, R1. apply Rabs_le. split; lra.
  Qed.

  (** ** multiplicative closeness *)
  Definition within (x v c : R) : Prop := v * exp (- c) <= x <= v * exp c.
  Lemma within_mul x v c y w d : 0 <= v -> 0 <= w -> within x v c -> within y w d -> within (x * y) (v * w) (c + d).
  Proof.
    intros Pv Pw (A & B) (C & D). unfold within. replace (- (c + d)) with (- c + - d) by ring. rewrite !exp_plus. pose proof (exp_pos (-c)). pose proof (exp_pos (-d)). pose proof (exp_pos c). pose proof (exp_pos d).
    assert (0 <= v * exp (-c)) by (apply Rmult_le_pos; lra). assert (0 <= w * exp (-d)) by (apply Rmult_le_pos; lra). split.
    - replace (v * w * (exp (- c) * exp (- d))) with (v * exp (-c) * (w * exp (-d))) by ring. apply Rmult_le_compat; lra.
    - replace (v * w * (exp c * exp d)) with (v * exp c * (w * exp d)) by ring. apply Rmult_le_compat; lra.
  Qed.
  Lemma within_mono x v c d : 0 <= v -> c <= d -> within x v c -> within x v d.
  Proof. intros Pv H (A & B). pose proof (exp_mono c d H). pose proof (exp_mono (-d) (-c) ltac:(lra)). split; [eapply Rle_trans; [|exact A]|eapply Rle_trans; [exact B|]]; apply Rmult_le_compat_l; lra. Qed.
  Lemma exp_lin c : 0 <= c <= / 2 -> exp c <= 1 + 2 * c.
  Proof.
    intro H. pose proof (exp_ineq1_le (-c)) as A. pose proof (exp_pos c) as P. assert (Q : exp c * exp (-c) = 1) by (rewrite <- exp_plus, Rplus_opp_r; apply exp_0).
    assert (exp c * (1 - c) <= 1). { rewrite <- Q. apply Rmult_le_compat_l; lra. } apply Rmult_le_reg_r with (1 - c); [lra|]. nra.
  Qed.
  Lemma within_rel x v r : 0 <= v -> 0 <= r <= / 2 -> Rabs (x - v) <= v * r -> within x v (2 * r).
  Proof.
    intros Pv Hr H. apply Rabs_le_inv in H. pose proof (exp_ineq1_le (2 * r)) as A. 
    assert (B : exp (- (2 * r)) <= 1 - r). { pose proof (exp_ineq1_le (2 * r)) as E. rewrite exp_Ropp. apply Rmult_le_reg_r with (exp (2 * r)); [apply exp_pos|]. rewrite Rinv_l by (pose proof (exp_pos (2 * r)); lra). apply Rle_trans with ((1 - r) * (1 + 2 * r)); [nra|apply Rmult_le_compat_l; lra]. }
    split; [apply Rle_trans with (v * (1 - r)); [apply Rmult_le_compat_l; lra|lra]|apply Rle_trans with (v * (1 + r)); [lra|apply Rmult_le_compat_l; lra]].
  Qed.
  Lemma rel_within x v c : 0 <= v -> 0 <= c <= / 2 -> within x v c -> Rabs (x - v) <= v * (2 * c).
  Proof.
    intros Pv Hc (A & B). pose proof (exp_lin c Hc) as E. pose proof (exp_ineq1_le (-c)) as E'. apply Rabs_le.
    assert (v * exp c <= v * (1 + 2 * c)) by (apply Rmult_le_compat_l; lra). assert (v * (1 - c) <= v * exp (-c)) by (apply Rmult_le_compat_l; lra). assert (0 <= v * c) by (apply Rmult_le_pos; lra). split; lra.
  Qed.
  Lemma rnd_rel x : bpow radix2 (-1000) <= Rabs x -> Rabs (rnd x - x) <= u * Rabs x.
  Proof.
    intro H. pose proof (relative_error_N_FLT radix2 (-1074) 53 ltac:(lia) (fun n => negb (Z.even n)) x) as E. rewrite <- bpow_u. apply E. eapply Rle_trans; [|exact H]. apply bpow_le. lia.
  Qed.
  Lemma exp_m600 : bpow radix2 (-960) <= exp (-600).
  Proof. change (-600) with (-(600)). rewrite exp_Ropp. replace (bpow radix2 (-960)) with (/ bpow radix2 960) by (now rewrite <- bpow_opp). apply Rinv_le_contravar; [apply exp_pos|apply exp_600]. Qed.

  (** the value of exp on an approximation of - V *)
  Lemma exp_app (w : double) V d : exp_contract fexp -> finite w -> 0 <= V <= 590 -> 0 <= d <= 1 -> Rabs (B2R w + V) <= d ->
    finite (fexp w) /\ within (B2R (fexp w)) (exp (- V)) (d + 8 * u).
  Proof.
    intros He F HV Hd H. apply Rabs_le_inv in H. destruct (ex_accurate _ He w F) as (A & B); [apply Rabs_le; lra|]. split; [exact A|].
    assert (U : 0 < u <= / 1000000000000) by (unfold u; lra). pose proof (exp_pos (B2R w)) as P. apply within_rel in B; [|lra|lra]. replace (2 * (4 * u)) with (8 * u) in B by ring. destruct B as (B1 & B2).
    pose proof (exp_pos (8 * u)). pose proof (exp_pos (- (8 * u))). split.
    - eapply Rle_trans; [|exact B1]. replace (- (d + 8 * u)) with (- d + - (8 * u)) by ring. rewrite exp_plus, <- Rmult_assoc. apply Rmult_le_compat_r; [lra|]. rewrite <- exp_plus. apply exp_mono. lra.
    - eapply Rle_trans; [exact B2|]. rewrite exp_plus, <- Rmult_assoc. apply Rmult_le_compat_r; [lra|]. rewrite <- exp_plus. apply exp_mono. lra.
  Qed.
  Lemma within_trans x v w c d : within x v c -> within v w d -> 0 <= v -> within x w (c + d).
  Proof.
    intros (A & B) (C & D) P. unfold within. replace (- (c + d)) with (- d + - c) by ring. rewrite (Rplus_comm c d), !exp_plus, <- !Rmult_assoc. pose proof (exp_pos c). pose proof (exp_pos (-c)).
    split; [eapply Rle_trans; [|exact A]|eapply Rle_trans; [exact B|]]; apply Rmult_le_compat_r; lra.
  Qed.
  Lemma scale_sq l : plain_scale l -> / 1000000000000 <= B2R l ^ 2 <= 100000000.
  Proof. intros (_ & H). replace (B2R l ^ 2) with (Rabs (B2R l) * Rabs (B2R l)) by (rewrite <- Rabs_mult, Rabs_pos_eq by apply Rle_0_sqr; ring). nra. Qed.
  Lemma eta_u : eta <= u * / 10000000000000. Proof. unfold eta, u. lra. Qed.
  Lemma rnd_pos_app L : / 1000000000000 <= L -> Rabs (rnd L - L) <= 2 * u * L.
  Proof. intro H. pose proof (rnd_error L) as E. pose proof eta_u. assert (0 < u) by (unfold u; lra). rewrite (Rabs_pos_eq L) in E by lra. eapply Rle_trans; [exact E|]. assert (u * / 10000000000000 <= u * L) by (apply Rmult_le_compat_l; lra). lra. Qed.
  Lemma two_ll_app l : plain_scale l -> let q := nmul (nmul ntwo l) l in finite q /\ Rabs (B2R q - 2 * B2R l ^ 2) <= 2 * u * (2 * B2R l ^ 2).
  Proof.
    intro Hl. pose proof (scale_sq l Hl) as Q. destruct Hl as (F & L & H). cbv zeta. unfold ntwo. cbn [nmul nlit AOps DoubleOps]. destruct (nofnat_ex fexp fsin fcos fsum 2 ltac:(cbn; lia)) as (F2 & V2).
    unfold nofnat in F2, V2. cbn [nlit DoubleQueries.QOps DoubleOps Z.of_nat Pos.of_succ_nat Pos.succ INR] in F2, V2. set (two := Bdiv mode_NE (dZ 2) (dZ 1)) in *.
    assert (A : rnd (B2R two * B2R l) = B2R two * B2R l).
    { rewrite V2. replace ((1 + 1) * B2R l) with (B2R l * bpow radix2 1) by (cbn; ring). apply round_generic; [apply valid_rnd_round_mode|].
      apply (mult_bpow_pos_exact_FLT radix2 (-1074) 53 (B2R l) 1 (format l)). lia. }
    pose proof (Bmult_correct 53 1024 _ _ mode_NE two l) as M. rewrite rnd_small in M. 2: { apply big. rewrite V2, Rabs_mult. replace (1 + 1) with 2 by ring. rewrite (Rabs_pos_eq 2) by lra. lra. }
    rewrite A in M. destruct M as (V & FM & _). rewrite F2, F in FM. cbn [andb] in FM. set (t := Bmult mode_NE two l) in *.
    pose proof (Bmult_correct 53 1024 _ _ mode_NE t l) as M. rewrite V, V2 in M. replace ((1 + 1) * B2R l * B2R l) with (2 * B2R l ^ 2) in M by ring.
    rewrite rnd_small in M by (apply big; rewrite Rabs_pos_eq; lra). destruct M as (V' & F' & _). rewrite FM, F in F'. split; [exact F'|]. rewrite V'. apply rnd_pos_app. lra.
  Qed.
  Lemma ll_app l : plain_scale l -> finite (nsq l) /\ Rabs (B2R (nsq l) - B2R l ^ 2) <= 2 * u * B2R l ^ 2.
  Proof.
    intro Hl. pose proof (scale_sq l Hl) as Q. destruct Hl as (F & L & H). unfold nsq. cbn [nmul AOps DoubleOps]. pose proof (Bmult_correct 53 1024 _ _ mode_NE l l) as M.
    replace (B2R l * B2R l) with (B2R l ^ 2) in M by ring. rewrite rnd_small in M by (apply big; rewrite Rabs_pos_eq; lra). destruct M as (V' & F' & _). rewrite F in F'. split; [exact F'|]. rewrite V'. apply rnd_pos_app. lra.
  Qed.
  Lemma rnd_opp' x : rnd (- x) = - rnd x. Proof. apply (round_NE_opp radix2). Qed.
  (** one factor exp(- s / (2 l^2)) *)
  Lemma rbf1_app l s S n : exp_contract fexp -> plain_scale l -> (n <= 1000)%nat -> app s S ((4 + 3 * INR n) * u) (2 * INR n * eta) -> 0 <= S -> let V := S / (2 * B2R l ^ 2) in V <= 590 ->
    finite (rbf1 l s) /\ within (B2R (rbf1 l s)) (exp (- V)) ((3 * INR n + 11) * (V + 1) * u + 8 * u).
  Proof.
    intros He Hl Hn Hs PS V HV. pose proof (scale_sq l Hl) as Q. destruct (two_ll_app l Hl) as (Fq & Bq). unfold rbf1. set (q := nmul (nmul ntwo l) l) in *. set (L := 2 * B2R l ^ 2) in *.
    pose proof (pos_INR n) as P. assert (N3 : INR n <= 1000) by (replace 1000 with (INR 1000) by (rewrite INR_IZR_INZ; reflexivity); now apply le_INR).
    assert (U : 0 < u <= / 1000000000000) by (unfold u; lra). pose proof eta_u as EU. assert (E0 : 0 < eta) by (unfold eta; lra).
    assert (mL : 2 * INR n * eta / L <= INR n * u * / 10).
    { apply Rmult_le_reg_r with L; [unfold L; lra|]. unfold Rdiv. rewrite Rmult_assoc, Rinv_l, Rmult_1_r by (unfold L; lra). apply Rle_trans with (2 * INR n * (u * / 10000000000000)); [apply Rmult_le_compat_l; lra|].
      replace (2 * INR n * (u * / 10000000000000)) with (INR n * u * / 10 * (2 * / 1000000000000)) by field. apply Rmult_le_compat_l; [apply Rmult_le_pos; [apply Rmult_le_pos|]; lra|unfold L; lra]. }
    assert (nu : 0 <= INR n * u <= / 1000000000) by (split; [apply Rmult_le_pos; lra|]; apply Rle_trans with (1000 * u); [apply Rmult_le_compat_r; lra|lra]).
    assert (V0 : 0 <= V) by (apply Rmult_le_pos; [lra|left; apply Rinv_0_lt_compat; unfold L; lra]).
    destruct (quot_app s q S L _ _ Hs Fq ltac:(unfold L; lra) Bq PS ltac:(fold V; lra) ltac:(split; lra) ltac:(apply Rmult_le_pos; lra) ltac:(lra)) as (Pq & _ & R & Z). fold V in R.
    cbn [nexp ndiv nopp AOps DoubleOps]. pose proof (Bdiv_correct 53 1024 _ _ mode_NE (Bopp s) q ltac:(lra)) as C. rewrite B2R_Bopp, is_finite_Bopp in C. destruct Hs as (Fs & _). rewrite Fs in C.
    replace (- B2R s / B2R q) with (- (B2R s / B2R q)) in C by (field; lra). rewrite rnd_small in C by (apply big; rewrite Rabs_Ropp, Rabs_pos_eq; lra). destruct C as (C1 & C2 & _). rewrite rnd_opp' in C1.
    assert (vu : 0 <= V * u <= / 1000000000) by (split; [apply Rmult_le_pos; lra|]; apply Rle_trans with (590 * u); [apply Rmult_le_compat_r; lra|lra]).
    assert (vnu : 0 <= V * (INR n * u) <= 590 * (INR n * u)) by (split; [apply Rmult_le_pos; lra|]; apply Rmult_le_compat_r; lra).
    apply exp_app; [exact He|exact C2|lra|split; lra|]. rewrite C1. replace (- rnd (B2R s / B2R q) + V) with (- (rnd (B2R s / B2R q) - V)) by ring. rewrite Rabs_Ropp. eapply Rle_trans; [exact R|]. lra.
  Qed.
  Lemma sq_bnd a b : Rabs a <= 10000 -> Rabs b <= 10000 -> 0 <= (a - b) ^ 2 <= 1000000000.
  Proof. intros A B. apply Rabs_le_inv in A, B. assert (H : -20000 <= a - b <= 20000) by lra. set (t := a - b) in *. nra. Qed.
  Lemma sqdist_app (x y : mat double) D i j : sum_contract fsum -> (D <= 1000)%nat -> mc x = D -> (forall d, (d < D)%nat -> plain_coord (get x i d) /\ plain_coord (get y j d)) ->
    app (sqdist x y i j) (sumn D (fun d => (B2R (get x i d) - B2R (get y j d)) ^ 2)) ((4 + 3 * INR D) * u) (2 * INR D * eta).
  Proof.
    intros Hs HD Hx H. unfold sqdist. rewrite Hx. replace ((4 + 3 * INR D) * u) with (4 * u + 3 * INR D * u) by ring. assert (0 < u <= / 1000000) by (unfold u; lra). assert (0 < eta <= / 1000) by (unfold eta; lra).
    apply sum_app; [exact Hs|exact HD|lra|lra|]. intros d Hd. destruct (H d Hd) as ((Fa & Ba) & (Fb & Bb)). split; [|now apply sq_app]. now apply sq_bnd.
  Qed.
  Lemma sq1_app (x y : mat double) i j d : sum_contract fsum -> plain_coord (get x i d) -> plain_coord (get y j d) ->
    app (sq1 x y i j d) ((B2R (get x i d) - B2R (get y j d)) ^ 2) ((4 + 3 * INR 1) * u) (2 * INR 1 * eta).
  Proof.
    intros Hs (Fa & Ba) (Fb & Bb). unfold sq1. replace ((4 + 3 * INR 1) * u) with (4 * u + 3 * INR 1 * u) by ring. assert (0 < u <= / 1000000) by (unfold u; lra). assert (0 < eta <= / 1000) by (unfold eta; lra).
    set (f := fun _ : nat => nsq (nsub (get x i d) (get y j d))). change [nsq (nsub (get x i d) (get y j d))] with (map f (seq 0 1)).
    replace ((B2R (get x i d) - B2R (get y j d)) ^ 2) with (sumn 1 (fun _ => (B2R (get x i d) - B2R (get y j d)) ^ 2)) by (cbn; ring).
    apply sum_app; [exact Hs|lia|lra|lra|]. intros ? ?. split; [|now apply sq_app]. now apply sq_bnd.
  Qed.
  Lemma mult_within (a b : double) v w c d : finite a -> finite b -> exp (-590) <= v * w <= 1 -> 0 <= v -> 0 <= w -> 0 <= c + d <= 1 -> within (B2R a) v c -> within (B2R b) w d ->
    finite (nmul a b) /\ within (B2R (nmul a b)) (v * w) (c + d + 2 * u).
  Proof.
    intros Fa Fb H Pv Pw Hc A B. pose proof (within_mul _ _ _ _ _ _ Pv Pw A B) as W. pose proof W as (W1 & W2). assert (Pvw : 0 <= v * w) by now apply Rmult_le_pos.
    assert (Lo : bpow radix2 (-1000) <= B2R a * B2R b).
    { apply Rle_trans with (bpow radix2 (-960)); [apply bpow_le; lia|]. eapply Rle_trans; [apply exp_m600|]. eapply Rle_trans; [|exact W1]. apply Rle_trans with (exp (-590) * exp (- (c + d))); [rewrite <- exp_plus; apply exp_mono; lra|apply Rmult_le_compat_r; [left; apply exp_pos|lra]]. }
    assert (Hi : B2R a * B2R b <= 3). { eapply Rle_trans; [exact W2|]. apply Rle_trans with (1 * exp 1); [apply Rmult_le_compat; try lra; [left; apply exp_pos|apply exp_mono; lra]|pose proof exp_le_3; lra]. }
    pose proof (bpow_gt_0 radix2 (-1000)) as P. cbn [nmul AOps DoubleOps]. pose proof (Bmult_correct 53 1024 _ _ mode_NE a b) as M. rewrite rnd_small in M by (apply big; rewrite Rabs_pos_eq; lra).
    destruct M as (M1 & M2 & _). rewrite Fa, Fb in M2. split; [exact M2|]. rewrite M1. rewrite (Rplus_comm (c + d)). assert (U : 0 < u <= / 2) by (unfold u; lra).
    apply (within_trans _ (B2R a * B2R b)); [|exact W|lra]. apply within_rel; [lra|lra|]. rewrite (Rmult_comm _ u). rewrite <- (Rabs_pos_eq (B2R a * B2R b)) at 3 by lra. apply rnd_rel. rewrite Rabs_pos_eq; lra.
  Qed.
  Lemma prodf_app (F : nat -> double) (V : nat -> R) D : (D <= 1000)%nat -> (forall d, (d < D)%nat -> 0 <= V d) -> sumn D V <= 590 ->
    (forall d, (d < D)%nat -> finite (F d) /\ within (B2R (F d)) (exp (- V d)) (14 * (V d + 1) * u + 8 * u)) ->
    forall m, (m <= D)%nat -> finite (prodf F m) /\ within (B2R (prodf F m)) (exp (- sumn m V)) (14 * sumn m V * u + 24 * INR m * u).
  Proof.
    intros HD PV HV H. assert (U : 0 < u <= / 1000000000000) by (unfold u; lra).
    induction m as [|m IH]; intro Hm.
    - destruct dZ1 as (F1 & V1). split; [exact F1|]. change (prodf F 0) with (dZ 1). rewrite V1. cbn [sumn INR]. replace (14 * 0 * u + 24 * 0 * u) with 0 by ring. rewrite Ropp_0. unfold within. rewrite Ropp_0, exp_0. lra.
    - destruct (IH ltac:(lia)) as (Fm & Wm). destruct (H m ltac:(lia)) as (Ff & Wf). rewrite prodf_S. cbn [sumn]. rewrite S_INR. pose proof (pos_INR m) as P.
      assert (N3 : INR m <= 1000) by (replace 1000 with (INR 1000) by (rewrite INR_IZR_INZ; reflexivity); apply le_INR; lia).
      assert (A0 : 0 <= sumn m V) by (apply sumn_ge0; intros; apply PV; lia). pose proof (PV m ltac:(lia)) as B0.
      assert (AB : sumn m V + V m <= 590). { eapply Rle_trans; [|exact HV]. change (sumn m V + V m) with (sumn (S m) V). replace D with (S m + (D - S m))%nat by lia. rewrite sumn_app. assert (0 <= sumn (D - S m) (fun i => V (S m + i)%nat)) by (apply sumn_ge0; intros; apply PV; lia). lra. }
      replace (- (sumn m V + V m)) with (- sumn m V + - V m) by ring. rewrite exp_plus.
      replace (14 * (sumn m V + V m) * u + 24 * (INR m + 1) * u) with (14 * sumn m V * u + 24 * INR m * u + (14 * (V m + 1) * u + 8 * u) + 2 * u) by ring.
      apply mult_within; auto; try (left; apply exp_pos).
      + rewrite <- exp_plus. split; [apply exp_mono; lra|]. rewrite <- exp_0. apply exp_mono. lra.
      + assert (0 <= sumn m V * u <= 590 * u) by (split; [apply Rmult_le_pos; lra|apply Rmult_le_compat_r; lra]). assert (0 <= V m * u <= 590 * u) by (split; [apply Rmult_le_pos; lra|apply Rmult_le_compat_r; lra]).
        assert (0 <= INR m * u <= 1000 * u) by (split; [apply Rmult_le_pos; lra|apply Rmult_le_compat_r; lra]). lra.
  Qed.

  (** C82, accuracy.  Points and lengthscales of ordinary size, at most 1000 dimensions, exact exponent V at most 590 (so that the Gaussian is far
      from the smallest double): every entry of the kernel matrix is exp(-V) up to a relative error of 48 (D+1) (V+1) 2^-53 *)
  Theorem C82_accuracy K D x y l : sum_contract fsum -> exp_contract fexp -> rbf_kernel K -> d_args D x y l -> (D <= 1000)%nat ->
    match l with LScal v => plain_scale v | LVec ls => forall d, (d < D)%nat -> plain_scale (d_scale l d) end ->
    exists A, K x y l = Ok A /\ mr A = mr x /\ mc A = mr y /\
      forall i j, (i < mr x)%nat -> (j < mr y)%nat -> (forall d, (d < D)%nat -> plain_coord (get x i d) /\ plain_coord (get y j d)) ->
        let V := gauss_exponent D x y l i j in V <= 590 ->
        finite (get A i j) /\ Rabs (B2R (get A i j) - exp (- V)) <= exp (- V) * (48 * INR (D + 1) * (V + 1) * u).
  Proof.
    intros Hs He HK (Hx & Hy & Hl) HD Hu. eexists. split; [apply (kernel_entries K D l dNaN x y HK Hx Hy Hl)|]. split; [reflexivity|]. split; [reflexivity|].
    intros i j Hi Hj Hf V HV. rewrite get_mk by auto. unfold kent. pose proof (pos_INR D) as P. assert (N3 : INR D <= 1000) by (replace 1000 with (INR 1000) by (rewrite INR_IZR_INZ; reflexivity); now apply le_INR).
    assert (U : 0 < u <= / 1000000000000) by (unfold u; lra).
    assert (V0 : 0 <= V). { apply sumn_ge0. intros d Hd. assert (PS : plain_scale (d_scale l d)) by (destruct l; [exact Hu|now apply Hu]). pose proof (scale_sq _ PS). apply Rmult_le_pos; [apply pow2_ge_0|left; apply Rinv_0_lt_compat; lra]. }
    assert (VU : 0 <= V * u <= 590 * u) by (split; [apply Rmult_le_pos; lra|apply Rmult_le_compat_r; lra]).
    assert (DU : 0 <= INR D * u <= 1000 * u) by (split; [apply Rmult_le_pos; lra|apply Rmult_le_compat_r; lra]).
    assert (DVU : 0 <= INR D * (V * u) <= 1000 * (V * u)) by (split; [apply Rmult_le_pos; lra|apply Rmult_le_compat_r; lra]).
    assert (Fin : forall (a : double), finite a /\ within (B2R a) (exp (- V)) (24 * INR (D + 1) * (V + 1) * u) -> finite a /\ Rabs (B2R a - exp (- V)) <= exp (- V) * (48 * INR (D + 1) * (V + 1) * u)).
    { intros a (Fa & W). split; [exact Fa|]. replace (48 * INR (D + 1) * (V + 1) * u) with (2 * (24 * INR (D + 1) * (V + 1) * u)) by ring. apply rel_within; [left; apply exp_pos| |exact W]. rewrite plus_INR. cbn [INR]. split; lra. }
    apply Fin. clear Fin. rewrite plus_INR. change (INR 1) with 1. destruct l as [l0|ls].
    - assert (EV : sumn D (fun d => (B2R (get x i d) - B2R (get y j d)) ^ 2) / (2 * B2R l0 ^ 2) = V). { unfold V, gauss_exponent. cbn [d_scale]. now rewrite <- sumn_div. }
      pose proof (rbf1_app l0 (sqdist x y i j) _ D He Hu HD (sqdist_app x y D i j Hs HD Hx Hf)) as R. cbv zeta in R. rewrite EV in R. destruct R as (F & W); [|exact HV|].
      { apply sumn_ge0. intros. apply pow2_ge_0. }
      split; [exact F|]. eapply within_mono; [left; apply exp_pos| |exact W]. lra.
    - destruct (prodf_app (fun d => rbf1 (nth d ls dNaN) (sq1 x y i j d)) (fun d => (B2R (get x i d) - B2R (get y j d)) ^ 2 / (2 * B2R (d_scale (LVec ls) d) ^ 2)) D HD) with (m := D) as (F & W).
      + intros d Hd. pose proof (scale_sq _ (Hu d Hd)). apply Rmult_le_pos; [apply pow2_ge_0|left; apply Rinv_0_lt_compat; lra].
      + exact HV.
      + intros d Hd. destruct (Hf d Hd) as (Cx & Cy). pose proof (rbf1_app (d_scale (LVec ls) d) (sq1 x y i j d) _ 1 He (Hu d Hd) ltac:(lia) (sq1_app x y i j d Hs Cx Cy) (pow2_ge_0 _)) as R. cbv zeta in R.
        change (nth d ls dNaN) with (d_scale (LVec ls) d). replace (3 * INR 1 + 11) with 14 in R by (cbn; ring). apply R. eapply Rle_trans; [|exact HV]. unfold V, gauss_exponent.
        apply (sumn_term D (fun d => (B2R (get x i d) - B2R (get y j d)) ^ 2 / (2 * B2R (d_scale (LVec ls) d) ^ 2)) d); [|exact Hd]. intros e Hd'. pose proof (scale_sq _ (Hu e Hd')). apply Rmult_le_pos; [apply pow2_ge_0|left; apply Rinv_0_lt_compat; lra].
      + lia.
      + split; [exact F|]. change (sumn D _) with V in W. eapply within_mono; [left; apply exp_pos| |exact W]. lra.
  Qed.

  (** ** the pytorch kernel *)
  Lemma half_exp v V D : exp_contract fexp -> (D <= 1000)%nat -> 0 <= V <= 590 -> app v (2 * V) ((10 + 3 * INR D) * u) (2 * (INR D + 1) * u) ->
    finite (nexp (nmul (nlit (-1) 2) v)) /\ within (B2R (nexp (nmul (nlit (-1) 2) v))) (exp (- V)) ((5 * INR D + 14) * (V + 1) * u + 8 * u).
  Proof.
    intros He HD HV (Fv & Pv & Av). destruct (half_spec fexp fsin fcos fsum) as (Fh & Vh & _). set (h := nlit (-1) 2) in *. cbn [nexp nmul AOps DoubleOps].
    pose proof (pos_INR D) as P. assert (N3 : INR D <= 1000) by (replace 1000 with (INR 1000) by (rewrite INR_IZR_INZ; reflexivity); now apply le_INR).
    assert (U : 0 < u <= / 1000000000000) by (unfold u; lra). assert (EU : 0 < eta <= u) by (unfold eta, u; lra).
    assert (VU : 0 <= V * u <= 590 * u) by (split; [apply Rmult_le_pos; lra|apply Rmult_le_compat_r; lra]).
    assert (DU : 0 <= INR D * u <= 1000 * u) by (split; [apply Rmult_le_pos; lra|apply Rmult_le_compat_r; lra]).
    assert (DVU : 0 <= INR D * (V * u) <= 1000 * (V * u)) by (split; [apply Rmult_le_pos; lra|apply Rmult_le_compat_r; lra]). apply Rabs_le_inv in Av.
    assert (vB : B2R v <= 2 * V + 1) by lra.
    change (B2R h = - / 2) in Vh. destruct (mult_near h v Fh Fv) as (Fm & N). { rewrite Vh. apply Rabs_le. lra. }
    rewrite Vh in N. assert (E : Rabs (- / 2 * B2R v) = B2R v / 2). { rewrite Rabs_left1 by lra. lra. } rewrite E in N. clear E. apply Rabs_le_inv in N.
    assert (uv : u * (B2R v / 2) <= u * (V + 1)) by (apply Rmult_le_compat_l; lra).
    apply exp_app; [exact He|exact Fm|lra|split; lra|]. apply Rabs_le. split; lra.
  Qed.
  Lemma quot_t (s l : double) S k m : app s S k m -> plain_scale l -> 0 <= S -> S / B2R l ^ 2 <= 1000000 -> 0 <= k <= / 1000 -> 0 <= m <= / 1000000000000 ->
    app (ndiv s (nsq l)) (S / B2R l ^ 2) (k + 6 * u) (3 * (m / B2R l ^ 2) + eta).
  Proof.
    intros Hs Hl PS HS Hk Hm. pose proof (scale_sq l Hl) as Q. destruct (ll_app l Hl) as (Fq & Bq).
    destruct (quot_app s (nsq l) S (B2R l ^ 2) k m Hs Fq ltac:(lra) Bq PS HS Hk ltac:(lra)) as (Pq & _ & R & Z).
    { apply Rmult_le_reg_r with (B2R l ^ 2); [lra|]. unfold Rdiv. rewrite Rmult_assoc, Rinv_l by lra. lra. }
    set (q := nsq l) in *. cbn [ndiv AOps DoubleOps]. pose proof (Bdiv_correct 53 1024 _ _ mode_NE s q ltac:(lra)) as C. rewrite rnd_small in C by (apply big; rewrite Rabs_pos_eq; lra). destruct C as (C1 & C2 & _).
    destruct Hs as (Fs & _). rewrite Fs in C2. split; [exact C2|]. rewrite C1. split; [apply rnd_nonneg; lra|]. eapply Rle_trans; [exact R|]. lra.
  Qed.
  Lemma app_mono x v k m k' m' : 0 <= v -> k <= k' -> m <= m' -> app x v k m -> app x v k' m'.
  Proof. intros Pv Hk Hm (A & B & C). split; [exact A|]. split; [exact B|]. eapply Rle_trans; [exact C|]. assert (v * k <= v * k') by (apply Rmult_le_compat_l; lra). lra. Qed.

  (** the RBF class with its default signal variance: same accuracy *)
  Theorem C82_torch_accuracy D x y l : sum_contract fsum -> exp_contract fexp -> d_args D x y l -> (D <= 1000)%nat ->
    match l with LScal v => plain_scale v | LVec ls => forall d, (d < D)%nat -> plain_scale (d_scale l d) end ->
    exists o A o', RBF_init l (dZ 1) (match l with LVec _ => true | _ => false end) = Ok o /\
      RBF_Kernel o x y = Ok (A, o') /\ mr A = mr x /\ mc A = mr y /\
      forall i j, (i < mr x)%nat -> (j < mr y)%nat -> (forall d, (d < D)%nat -> plain_coord (get x i d) /\ plain_coord (get y j d)) ->
        let V := gauss_exponent D x y l i j in V <= 590 ->
        finite (get A i j) /\ Rabs (B2R (get A i j) - exp (- V)) <= exp (- V) * (48 * INR (D + 1) * (V + 1) * u).
  Proof.
    intros Hs He (Hx & Hy & Hl) HD Hu.
    assert (HR : RBF_init l (dZ 1) (match l with LVec _ => true | _ => false end) = Ok {| rb_l := l; rb_multil := (match l with LVec _ => true | _ => false end); rb_sv := dZ 1; rb_K := None |}) by now destruct l.
    set (arg := fun i j => match l with
        | LScal l0 => ndiv (nsum (map (fun k => nsq (nsub (get x i k) (get y j k))) (seq 0 D))) (nsq l0)
        | LVec ls => nsum (map (fun k => ndiv (nsq (nsub (get x i k) (get y j k))) (nsq (nth k ls dNaN))) (seq 0 D)) end).
    set (ent := fun i j => nexp (nmul (nlit (-1) 2) (arg i j))).
    assert (HK : rbf_kvals (match l with LVec _ => true | _ => false end) l x y = Ok (mk (mr x) (mr y) ent)).
    { replace (rbf_kvals _ l x y) with (rbf_vals l x y) by now destruct l. unfold rbf_vals. rewrite Hx, Hy, bok_refl, bdim_refl.
      assert (DF : forall i j d, (d < D)%nat -> diff3 x y i j d = nsub (get x i d) (get y j d)) by (intros; unfold diff3; now rewrite !bidx_lt by lia).
      unfold ent, arg. destruct l as [l0|ls]; cbn [andb].
      - f_equal. apply mk_ext. intros i j _ _. do 4 f_equal. apply map_ext_in. intros d Hd. apply in_seq in Hd. now rewrite DF by lia.
      - rewrite Hl, bok_refl, bdim_refl. f_equal. apply mk_ext. intros i j _ _. do 3 f_equal. apply map_ext_in. intros d Hd. apply in_seq in Hd. rewrite !bidx_lt by lia. rewrite DF by lia. rewrite (nth_indep ls nzero dNaN) by lia. reflexivity. }
    eexists. exists (smul (dZ 1) (mk (mr x) (mr y) ent)). eexists.
    split; [exact HR|]. unfold RBF_Kernel. cbn [rb_l rb_sv rb_multil]. rewrite HK. cbn [rbind]. split; [reflexivity|].
    split; [reflexivity|]. split; [reflexivity|]. intros i j Hi Hj Hf HV. set (V := gauss_exponent D x y l i j) in *. unfold smul. rewrite !mmap1_mk, !get_mk by auto. unfold ent.
    pose proof (pos_INR D) as P. assert (N3 : INR D <= 1000) by (replace 1000 with (INR 1000) by (rewrite INR_IZR_INZ; reflexivity); now apply le_INR).
    assert (U : 0 < u <= / 1000000000000) by (unfold u; lra). pose proof eta_u as EU. assert (E0 : 0 < eta) by (unfold eta; lra).
    set (t := fun d => (B2R (get x i d) - B2R (get y j d)) ^ 2). set (L := fun d => B2R (d_scale l d) ^ 2).
    assert (PS : forall d, (d < D)%nat -> plain_scale (d_scale l d)) by (intros d Hd; destruct l; [exact Hu|now apply Hu]).
    assert (T0 : forall d, (d < D)%nat -> 0 <= t d / (2 * L d)). { intros d Hd. pose proof (scale_sq _ (PS d Hd)). unfold t, L. apply Rmult_le_pos; [apply pow2_ge_0|left; apply Rinv_0_lt_compat; lra]. }
    assert (EV : V = sumn D (fun d => t d / (2 * L d))) by reflexivity.
    assert (V0 : 0 <= V) by (rewrite EV; now apply sumn_ge0).
    assert (E2 : 2 * V = sumn D (fun d => t d / L d)). { rewrite EV, <- sumn_scal. apply sumn_ext. intros d Hd. pose proof (scale_sq _ (PS d Hd)). fold (L d) in H. field. lra. }
    assert (DU : 0 <= INR D * u <= 1000 * u) by (split; [apply Rmult_le_pos; lra|apply Rmult_le_compat_r; lra]).
    assert (AP : app (arg i j) (2 * V) ((10 + 3 * INR D) * u) (2 * (INR D + 1) * u)).
    { unfold arg. destruct l as [l0|ls].
      - pose proof (scale_sq l0 Hu) as Q0. assert (ES : 2 * V = sumn D t / B2R l0 ^ 2) by (rewrite E2; unfold L; cbn [d_scale]; now rewrite <- sumn_div). rewrite ES.
        assert (SQ : app (nsum (map (fun k => nsq (nsub (get x i k) (get y j k))) (seq 0 D))) (sumn D t) ((4 + 3 * INR D) * u) (2 * INR D * eta)) by (rewrite <- Hx at 1; apply sqdist_app; auto).
        assert (Pn : 0 <= 2 * INR D * eta <= / 1000000000000). { split; [apply Rmult_le_pos; lra|]. apply Rle_trans with (2 * 1000 * eta); [apply Rmult_le_compat_r; lra|unfold eta; lra]. }
        assert (P0 : 0 <= sumn D t) by (apply sumn_ge0; intros; apply pow2_ge_0).
        eapply app_mono; [| | |apply (quot_t _ l0 _ _ _ SQ Hu); [exact P0|lra|split; lra|exact Pn]]; [lra|lra|].
        assert (2 * INR D * eta / B2R l0 ^ 2 <= INR D * u * / 5).
        { apply Rmult_le_reg_r with (B2R l0 ^ 2); [lra|]. unfold Rdiv. rewrite Rmult_assoc, Rinv_l, Rmult_1_r by lra. apply Rle_trans with (2 * INR D * (u * / 10000000000000)); [apply Rmult_le_compat_l; lra|].
          replace (2 * INR D * (u * / 10000000000000)) with (INR D * u * / 5 * / 1000000000000) by field. apply Rmult_le_compat_l; lra. }
        lra.
      - rewrite E2. eapply app_mono; [| | |apply (sum_app D _ (fun d => t d / L d) (10 * u) u Hs HD); [lra|lra|]]; [lra|lra|lra|].
        intros d Hd. pose proof (scale_sq _ (PS d Hd)) as Q0. assert (Tn : 0 <= t d / L d) by (unfold t, L; apply Rmult_le_pos; [apply pow2_ge_0|left; apply Rinv_0_lt_compat; lra]).
        assert (TB : t d / L d <= 2 * V). { rewrite E2. apply (sumn_term D (fun d => t d / L d)); [|exact Hd]. intros e Hd'. pose proof (scale_sq _ (PS e Hd')). unfold t, L. apply Rmult_le_pos; [apply pow2_ge_0|left; apply Rinv_0_lt_compat; lra]. }
        split; [lra|]. destruct (Hf d Hd) as ((Fa & Ba) & (Fb & Bb)).
        eapply app_mono; [| | |apply (quot_t _ (d_scale (LVec ls) d) _ _ _ (sq_app _ _ Fa Fb Ba Bb) (PS d Hd)); [apply pow2_ge_0|unfold t, L in TB; lra|lra|unfold eta; lra]]; [exact Tn|lra|].
        fold (L d). assert (eta / L d <= u * / 10). { apply Rmult_le_reg_r with (L d); [unfold L; lra|]. unfold Rdiv. rewrite Rmult_assoc, Rinv_l, Rmult_1_r by (unfold L; lra). eapply Rle_trans; [exact EU|]. replace (u * / 10000000000000) with (u * / 10 * / 1000000000000) by field. apply Rmult_le_compat_l; unfold L; lra. }
        lra. }
    destruct (half_exp (arg i j) V D He HD ltac:(lra) AP) as (Fe & We). destruct dZ1 as (F1 & V1).
    assert (VU : 0 <= V * u <= 590 * u) by (split; [apply Rmult_le_pos; lra|apply Rmult_le_compat_r; lra]).
    assert (DVU : 0 <= INR D * (V * u) <= 1000 * (V * u)) by (split; [apply Rmult_le_pos; lra|apply Rmult_le_compat_r; lra]).
    assert (X1 : exp (-590) <= 1 * exp (- V) <= 1). { rewrite Rmult_1_l. split; [apply exp_mono; lra|]. rewrite <- exp_0. apply exp_mono. lra. }
    destruct (mult_within (dZ 1) (nexp (nmul (nlit (-1) 2) (arg i j))) 1 (exp (- V)) 0 ((5 * INR D + 14) * (V + 1) * u + 8 * u)) as (Fm & Wm); auto; [lra|left; apply exp_pos|split; lra| |].
    { unfold within. rewrite V1, Ropp_0, exp_0. lra. }
    split; [exact Fm|]. rewrite Rmult_1_l in Wm. replace (48 * INR (D + 1) * (V + 1) * u) with (2 * (24 * INR (D + 1) * (V + 1) * u)) by ring. rewrite plus_INR. change (INR 1) with 1.
    apply rel_within; [left; apply exp_pos|split; lra|]. eapply within_mono; [left; apply exp_pos| |exact Wm]. lra.
  Qed.
End Acc.
