(** C78, continued, and C79: what a PICE history implies, the importance weights, the end cost, the simulation with the trained policy. *)
From Coq Require Import String List ZArith Reals Lia Lra Bool ClassicalEpsilon.
From Verif Require Import Base.Num Base.Py Base.Arr Lib.ArrLemmas Model.Ext Model.DPFC Model.Examples Model.Pice Spec.RealSpec Spec.Contracts Spec.FlowSpec Spec.ExampleSpec Spec.PiceSpec Spec.PiceContracts.
From Verif Require Import Lib.RBase Lib.RSum Lib.RMat Lib.Estimator Lib.FlowLemmas Lib.TotalLemmas Lib.Ginv Props.GaussScores Props.Phenotype Props.ExampleSystems Lib.PiceLemmas Props.Pice Run.RealExt.
Import ListNotations.
Local Open Scope R_scope.

(** ** consequences of the history *)
Section History.
  Context (nb N k iters : nat) (h sig eta : R) (F : nat -> R -> R -> R) (x0 y2 : nat -> R) (W A Z U : nat -> nat -> nat -> nat -> R) (w : nat -> nat -> R) (a0 a1 : nat -> R) (c1 c2 : nat -> BinInt.Z).
  Context (H : pice_history nb N k iters h sig eta F x0 y2 W A Z U w a0 a1 c1 c2).

  (** the first simulation is not controlled *)
  Theorem C78_first_iteration d n t : (d < 2)%nat -> (n < N)%nat -> (t + 1 < k)%nat -> U 0%nat d n t = 0.
  Proof using H.
    intros Hd Hn Ht. destruct H as (H0 & _ & _ & _ & _ & H1 & _). destruct (H1 0%nat ltac:(lia)) as (D & _). destruct (D d n Hd Hn) as (_ & D1). rewrite (proj1 (D1 t Ht)).
    unfold policy. apply sumn_0. intros l _. rewrite H0. ring.
  Qed.
  (** nothing is ever learned for the last grid point *)
  Theorem C78_last_time i d l : (i <= iters)%nat -> (d < 2)%nat -> A i d (k - 1)%nat l = 0.
  Proof using H.
    intros Hi Hd. destruct H as (H0 & _ & _ & _ & _ & _ & H2). induction i as [|i IH]; [apply H0|]. destruct (H2 i ltac:(lia)) as (_ & _ & H3). destruct (H3 d Hd) as (_ & Q).
    replace (Datatypes.S i) with (i + 1)%nat by lia. rewrite Q. apply IH. lia.
  Qed.
  (** the end weights only grow, by factors 5/4, at most once in 51 iterations and not before iteration 51 *)
  Theorem C78_weights i : (i <= iters)%nat -> exists m0 m1, a0 i = (5 / 4) ^ m0 /\ a1 i = (5 / 4) ^ m1 /\ (m0 = 0 \/ 51 * m0 < i)%nat /\ (m1 = 0 \/ 51 * m1 < i)%nat.
  Proof using H.
    destruct H as (_ & A0 & A1 & C1 & C2 & _ & H2).
    assert (X : (i <= iters)%nat -> exists m0 m1, a0 i = (5 / 4) ^ m0 /\ a1 i = (5 / 4) ^ m1 /\
      (m0 = 0 \/ 51 * m0 < i /\ (51 * Z.of_nat m0 + 51 - Z.of_nat i <= c1 i)%Z)%nat /\ (m1 = 0 \/ 51 * m1 < i /\ (51 * Z.of_nat m1 + 51 - Z.of_nat i <= c2 i)%Z)%nat).
    { induction i as [|i IH]; intro Hi.
      - exists 0%nat, 0%nat. rewrite A0, A1. cbn. auto.
      - destruct IH as (m0 & m1 & E0 & E1 & B0 & B1); [lia|]. destruct (H2 i ltac:(lia)) as (_ & AD & _). replace (Datatypes.S i) with (i + 1)%nat by lia.
        destruct AD as [(S1 & S2 & S3 & S4 & S5 & S6)|[(_ & S0 & S2 & S3 & S4 & S5 & S6)|(_ & _ & S3 & S4 & S5 & S6)]]; rewrite S3, S4, S5, S6.
        + exists (Datatypes.S m0), m1. rewrite E0, E1. split; [reflexivity|]. split; [reflexivity|]. destruct S1 as (S1 & _). split; [right|]; lia.
        + exists m0, (Datatypes.S m1). rewrite E0, E1. split; [reflexivity|]. split; [reflexivity|]. destruct S0 as (S1 & _). split; [|right]; lia.
        + exists m0, m1. rewrite E0, E1. split; [reflexivity|]. split; [reflexivity|]. lia. }
    intro Hi. destruct (X Hi) as (m0 & m1 & E0 & E1 & B0 & B1). exists m0, m1. split; [auto|]. split; [auto|]. lia.
  Qed.
  (** the weights of the paths are positive and sum to one *)
  Theorem C78_path_weights i : (i <= iters)%nat -> (1 <= N)%nat -> (forall n, (n < N)%nat -> 0 < w i n) /\ sumn N (w i) = 1.
  Proof using H.
    intros Hi HN. destruct H as (_ & _ & _ & _ & _ & H1 & _). destruct (H1 i Hi) as (_ & SM). split; [intros n Hn; exact (softmin_pos _ _ _ _ SM Hn)|].
    rewrite (sumn_ext N _ _ SM). rewrite sumn_div. apply Rinv_r. apply Rgt_not_eq. apply sumn_gt0; [lia|]. intros; apply exp_pos.
  Qed.
  (** all paths start in x0, where the control therefore changes by eta times the weighted mean of the noise per unit of time: the path integral formula *)
  Theorem C78_first_time i d : (i < iters)%nat -> (d < 2)%nat -> (1 < k)%nat -> (1 <= nb)%nat -> (1 <= N)%nat ->
    policy nb (A (i + 1)%nat) d 0 (x0 0%nat) (x0 1%nat) = policy nb (A i) d 0 (x0 0%nat) (x0 1%nat) + eta * sumn N (fun n => w i n * (sig * W i d n 0%nat)) / h.
  Proof using H.
    intros Hi Hd Hk Hb HN. destruct (C78_path_weights i ltac:(lia) HN) as (Pw & Sw). destruct H as (_ & _ & _ & _ & _ & H1 & H2). destruct (H1 i ltac:(lia)) as (D & _). destruct (H2 i Hi) as (_ & _ & H3).
    destruct (H3 d Hd) as (B & _). destruct (B 0%nat ltac:(lia)) as (LS & _). clear B H3.
    set (ph := fun l => feature l (x0 0%nat) (x0 1%nat)) in *. set (a := fun l => A (i + 1)%nat d 0%nat l - A i d 0%nat l) in *. set (y := fun n => eta * (sig * W i d n 0%nat) / h) in *.
    assert (SE : forall b, squared_error nb N (w i) (fun l n => feature l (Z i 0%nat n 0%nat) (Z i 1%nat n 0%nat)) y b = sumn N (fun n => w i n * (sumn nb (fun l => b l * ph l) - y n) ^ 2)).
    { intro b. unfold squared_error. apply sumn_ext. intros n Hn. do 2 f_equal. f_equal. apply sumn_ext. intros l Hl. rewrite (proj1 (D 0%nat n ltac:(lia) Hn)), (proj1 (D 1%nat n ltac:(lia) Hn)). reflexivity. }
    set (m := sumn N (fun n => w i n * y n)). set (v := sumn nb (fun l => a l * ph l)).
    assert (Q : forall c, sumn N (fun n => w i n * (c - y n) ^ 2) = (c - m) ^ 2 + (sumn N (fun n => w i n * y n ^ 2) - m ^ 2)).
    { intro c. rewrite (sumn_ext N _ (fun n => (w i n * c ^ 2 - 2 * c * (w i n * y n)) + w i n * y n ^ 2)) by (intros; ring). rewrite sumn_plus, sumn_minus, sumn_scal, sumn_scal_r, Sw. fold m. ring. }
    specialize (LS (fun l => if Nat.eqb l 0 then m else 0)). rewrite !SE in LS. fold v in LS. rewrite !Q in LS.
    assert (E1 : sumn nb (fun l => (if Nat.eqb l 0 then m else 0) * ph l) = m).
    { rewrite (sumn_ext nb _ (fun l => if Nat.eqb l 0 then m * ph l else 0)) by (intros l _; destruct (Nat.eqb l 0); ring). rewrite (sumn_delta nb 0) by lia. unfold ph, feature, exponents. cbn. ring. }
    rewrite E1 in LS. assert (V : v = m) by nra.
    assert (M : m = eta * sumn N (fun n => w i n * (sig * W i d n 0%nat)) / h).
    { unfold m, y. unfold Rdiv. rewrite <- sumn_scal, <- sumn_scal_r. apply sumn_ext. intros. ring. }
    rewrite <- M, <- V. unfold policy, v, a. rewrite <- sumn_plus. apply sumn_ext. intros l Hl. unfold ph. ring.
  Qed.
End History.

(** ** the features *)
(** the first eleven features (the script uses six) are linearly independent; 10 and 11, and 14 and 15, are the same function, so that with
    twelve or more features the coefficients of a policy are not determined by the policy *)
Theorem C78_features :
  (forall l x y, (l < 16)%nat -> bas x y l = feature l x y) /\
  (forall a, (forall x y, sumn 11 (fun l => a l * feature l x y) = 0) -> forall l, (l < 11)%nat -> a l = 0) /\
  (forall x y, feature 10 x y = feature 11 x y /\ feature 14 x y = feature 15 x y) /\
  (forall nb A d t x y, (12 <= nb)%nat -> policy nb (fun d t l => A d t l + (if Nat.eqb l 10 then 1 else if Nat.eqb l 11 then -1 else 0)) d t x y = policy nb A d t x y).
Proof.
  split; [intros; now apply bas_R|]. split; [|split].
  - intros a Ha.
    assert (G : forall x y, a 0%nat + a 1%nat * x + a 2%nat * y + a 3%nat * (x * y) + a 4%nat * (x * x) + a 5%nat * (y * y) + a 6%nat * (x * x * y) + a 7%nat * (x * y * y) + a 8%nat * (x * x * x) + a 9%nat * (y * y * y) + a 10%nat * (x * x * y * y) = 0).
    { intros x y. rewrite <- (Ha x y). cbn [sumn]. unfold feature, exponents. cbn [nth]. ring. }
    assert (P := G 0 0). assert (P1 := G 1 0). assert (P2 := G (-1) 0). assert (P3 := G 2 0). assert (Q1 := G 0 1). assert (Q2 := G 0 (-1)). assert (Q3 := G 0 2).
    assert (R1 := G 1 1). assert (R2 := G 1 (-1)). assert (R3 := G (-1) 1). assert (R4 := G (-1) (-1)). clear G Ha. ring_simplify in P. ring_simplify in P1. ring_simplify in P2. ring_simplify in P3. ring_simplify in Q1. ring_simplify in Q2. ring_simplify in Q3.
    ring_simplify in R1. ring_simplify in R2. ring_simplify in R3. ring_simplify in R4.
    intros l Hl. do 11 (destruct l as [|l]; [lra|]). lia.
  - intros x y. split; reflexivity.
  - intros nb A d t x y Hn. unfold policy.
    rewrite (sumn_ext nb _ (fun l => A d t l * feature l x y + ((if Nat.eqb l 10 then feature l x y else 0) - (if Nat.eqb l 11 then feature l x y else 0)))).
    + rewrite sumn_plus, sumn_minus, (sumn_delta nb 10), (sumn_delta nb 11) by lia. unfold feature, exponents. cbn [nth]. ring.
    + intros l _. destruct (Nat.eqb_spec l 10); [subst; cbn [Nat.eqb]; ring|]. destruct (Nat.eqb l 11); ring.
Qed.

(** ** the importance weights *)
Lemma prodn_mul n f g : prodn n (fun i => f i * g i) = prodn n f * prodn n g.
Proof. induction n; cbn [prodn]; [ring|]. rewrite IHn. ring. Qed.
Lemma step_density h sig z b u wn : 0 < h -> sig <> 0 ->
  normal_density (z + h * b) (sig ^ 2 * h) (z + h * b + h * sig * u + sig * wn) =
  normal_density (z + h * (b + sig * u)) (sig ^ 2 * h) (z + h * b + h * sig * u + sig * wn) * exp (- (1 / 2 * u ^ 2 * h + u * wn)).
Proof.
  intros Hh Hs. unfold normal_density.
  assert (X : forall q a v c, a = v + c -> exp a / q = exp v / q * exp c) by (intros q a v c ->; rewrite exp_plus; unfold Rdiv; ring).
  apply X. field. lra.
Qed.
(** On every simulated path: exp(-cost), times the density of the path under the controlled dynamics, is the density of the path under the uncontrolled
    dynamics, times exp(-end cost), up to the factor exp((1-sig) sum u.W).  So the weights are the importance weights that PICE needs exactly
    when sig = 1 or the stochastic integral vanishes. *)
Theorem C79_importance nb N k h sig F A x0 Z U W alpha y2 n : 0 < h -> sig <> 0 -> (n < N)%nat -> driven nb N k h sig F A x0 Z U W ->
  let z := fun d t => Z d n t in
  let b := fun d t => F d (Z 0%nat n t) (Z 1%nat n t) in
  let stint := sumn 2 (fun d => sumn (k - 1) (fun t => U d n t * W d n t)) in
  let weight := exp (- cost_of k h sig alpha y2 (fun d t => U d n t) (fun d t => W d n t) (fun d => Z d n (k - 1)%nat)) in
  let controlled := path_density k h sig (fun d t => b d t + sig * U d n t) z in
  let target := path_density k h sig b z * exp (- end_cost alpha y2 (fun d => Z d n (k - 1)%nat)) in
  0 < controlled /\ weight * controlled = target * exp ((1 - sig) * stint) /\
  (weight = target / controlled <-> sig = 1 \/ stint = 0).
Proof.
  intros Hh Hs Hn D z b stint weight controlled target.
  assert (Pn : forall mu x, 0 < normal_density mu (sig ^ 2 * h) x).
  { intros mu x. unfold normal_density. apply Rdiv_lt_0_compat; [apply exp_pos|]. apply sqrt_lt_R0. assert (0 < sig ^ 2) by (cbn [pow]; rewrite Rmult_1_r; apply Rsqr_pos_lt; exact Hs). pose proof PI_RGT_0. assert (0 < sig ^ 2 * h) by nra. nra. }
  assert (Pp : forall m g, (forall i, 0 < g i) -> 0 < prodn m g) by (intros m g Hg; induction m; cbn [prodn]; [lra|apply Rmult_lt_0_compat; auto]).
  assert (Pc : 0 < controlled) by (unfold controlled, path_density; apply Pp; intro; apply Pp; auto).
  assert (Pf : path_density k h sig b z = controlled * exp (- sumn 2 (fun d => sumn (k - 1) (fun t => 1 / 2 * U d n t ^ 2 * h + U d n t * W d n t)))).
  { unfold controlled, path_density. rewrite sumn_swap, <- sumn_opp, <- prodn_exp, <- prodn_mul. apply prodn_ext. intros t Ht. rewrite <- sumn_opp, <- prodn_exp, <- prodn_mul. apply prodn_ext. intros d Hd.
    destruct (D d n Hd Hn) as (_ & D1). destruct (D1 t ltac:(lia)) as (_ & D2). unfold z, b. rewrite D2. now apply step_density. }
  assert (MW : weight * controlled = target * exp ((1 - sig) * stint)).
  { unfold target. rewrite Pf. unfold weight. rewrite !Rmult_assoc, <- !exp_plus, (Rmult_comm controlled), Rmult_comm, (Rmult_comm (exp _)). f_equal. f_equal. unfold cost_of, stint. rewrite !sumn_2, !sumn_plus.
    rewrite (sumn_ext (k-1) (fun t => U 0%nat n t * (sig * W 0%nat n t)) (fun t => sig * (U 0%nat n t * W 0%nat n t))) by (intros; ring).
    rewrite (sumn_ext (k-1) (fun t => U 1%nat n t * (sig * W 1%nat n t)) (fun t => sig * (U 1%nat n t * W 1%nat n t))) by (intros; ring). rewrite !sumn_scal. ring. }
  split; [exact Pc|]. split; [exact MW|].
  assert (Pt : 0 < target) by (unfold target; apply Rmult_lt_0_compat; [rewrite Pf; apply Rmult_lt_0_compat; [exact Pc|apply exp_pos]|apply exp_pos]).
  split.
  - intro Q. rewrite Q in MW. assert (E1 : exp ((1 - sig) * stint) = 1).
    { apply (Rmult_eq_reg_l target); [|apply Rgt_not_eq; exact Pt]. rewrite <- MW. field. apply Rgt_not_eq; exact Pc. }
    assert (E2 : (1 - sig) * stint = 0) by (apply exp_inv; rewrite exp_0; exact E1). apply Rmult_integral in E2. clear E1. rename E2 into E1. destruct E1; [left; lra|right; auto].
  - intro Q. apply (Rmult_eq_reg_r controlled); [|apply Rgt_not_eq; exact Pc]. rewrite MW. assert ((1 - sig) * stint = 0) as -> by (destruct Q as [ -> | -> ]; ring). rewrite exp_0. field. apply Rgt_not_eq; exact Pc.
Qed.

(** ** the end cost *)
(** It does not distinguish the two coordinates.  For a target on the diagonal (the script: (1,1)) and positive weights it is zero at the target only;
    for any other target and equal weights every point whose coordinates lie between those of the target has the least cost. *)
Theorem C79_end_cost a0 a1 y0 y1 z0 z1 : let al := fun e => if Nat.eqb e 0 then a0 else a1 in let y := fun e => if Nat.eqb e 0 then y0 else y1 in
  let cost := fun u v => end_cost al y (fun d => if Nat.eqb d 0 then u else v) in
  cost z0 z1 = cost z1 z0 /\
  (y0 = y1 -> cost z0 z1 = (a0 + a1) * (Rabs (z0 - y0) + Rabs (z1 - y0)) /\ (0 < a0 -> 0 < a1 -> 0 <= cost z0 z1 /\ (cost z0 z1 = 0 <-> z0 = y0 /\ z1 = y1))) /\
  (0 < a0 -> a0 = a1 -> y0 <= y1 -> cost y0 y1 <= cost z0 z1 /\ (cost z0 z1 = cost y0 y1 <-> y0 <= z0 <= y1 /\ y0 <= z1 <= y1)).
Proof.
  intros al y cost. unfold cost, end_cost, al, y. rewrite !sumn_2. cbn [Nat.eqb]. split; [ring|]. split.
  - intros <-. split; [ring|]. intros P0 P1. replace (a0 * Rabs (z0 - y0) + a1 * Rabs (z0 - y0) + (a0 * Rabs (z1 - y0) + a1 * Rabs (z1 - y0))) with ((a0 + a1) * (Rabs (z0 - y0) + Rabs (z1 - y0))) by ring.
    pose proof (Rabs_pos (z0 - y0)). pose proof (Rabs_pos (z1 - y0)). split; [nra|]. split.
    + intro Q. assert (Q' : Rabs (z0 - y0) + Rabs (z1 - y0) = 0) by (apply Rmult_integral in Q; destruct Q; lra).
      assert (A0 : Rabs (z0 - y0) = 0) by lra. assert (A1 : Rabs (z1 - y0) = 0) by lra. split; apply Rminus_diag_uniq; [destruct (Req_dec (z0 - y0) 0) as [|X]; auto; apply Rabs_no_R0 in X; lra|destruct (Req_dec (z1 - y0) 0) as [|X]; auto; apply Rabs_no_R0 in X; lra].
    + intros ( -> & -> ). rewrite Rminus_diag_eq, Rabs_R0 by reflexivity. ring.
  - intros P0 <- Hy. set (g := fun v => Rabs (v - y0) + Rabs (v - y1)).
    replace (a0 * Rabs (y0 - y0) + a0 * Rabs (y0 - y1) + (a0 * Rabs (y1 - y0) + a0 * Rabs (y1 - y1))) with (a0 * (g y0 + g y1)) by (unfold g; ring).
    replace (a0 * Rabs (z0 - y0) + a0 * Rabs (z0 - y1) + (a0 * Rabs (z1 - y0) + a0 * Rabs (z1 - y1))) with (a0 * (g z0 + g z1)) by (unfold g; ring).
    assert (G : forall v, y1 - y0 <= g v /\ (g v = y1 - y0 <-> y0 <= v <= y1)).
    { intro v. unfold g. destruct (Rcase_abs (v - y0)) as [X|X], (Rcase_abs (v - y1)) as [Y|Y]; rewrite ?(Rabs_left (v - y0)), ?(Rabs_left (v - y1)), ?(Rabs_right (v - y0)), ?(Rabs_right (v - y1)) by lra; split; try split; lra. }
    destruct (G z0) as (G0 & E0). destruct (G z1) as (G1 & E1). assert (g y0 = y1 - y0) as -> by (apply G; lra). assert (g y1 = y1 - y0) as -> by (apply G; lra). split; [nra|]. split.
    + intro Q. apply Rmult_eq_reg_l in Q; [|lra]. split; [apply E0|apply E1]; lra.
    + intros (X & Y). apply E0 in X. apply E1 in Y. rewrite X, Y. reflexivity.
Qed.

(** ** the simulation with the trained policy *)
(** It runs without an error, records the policy u at t+1, and moves the states with h*g^2*u: it is the training simulation of the policy multiplied by g,
    not of the trained policy itself *)
Theorem C79_simulation {S : Type} (E : Ext R S) f F g nb A y1 reps grid s : drift_map f F -> (nb <= 16)%nat -> List.length y1 = 2%nat -> (1 <= List.length grid)%nat ->
  let k := List.length grid in
  cf_shape nb k A ->
  exists c, pice_simulation E f g nb A y1 reps grid s = (Ok c, draws E reps (k - 1) s) /\ sh (ps_F c) 2 reps k /\ sh (ps_u c) 2 reps k /\
    (forall d n, (d < 2)%nat -> (n < reps)%nat -> get3 (ps_u c) d n 0 = 0 /\
       forall t, (t + 1 < k)%nat -> get3 (ps_u c) d n (t + 1) = policy nb (coef A) d t (get3 (ps_F c) 0 n t) (get3 (ps_F c) 1 n t)) /\
    driven nb reps k (1/1000) g F (fun d t l => g * coef A d t l) (listfn y1) (get3 (ps_F c)) (fun d n t => g * get3 (ps_u c) d n (t + 1)) (noise E reps s).
Proof.
  intros HF Hnb Hy1 Hk k HA. unfold pice_simulation. rewrite (enumerate_map grid 0). fold k in Hk |- *.
  destruct (mfold_seq_total (ps_body E f g nb A y1 reps) (fun i => (i, nth i grid 0))
    (fun i c s' => sh (ps_F c) 2 reps k /\ sh (ps_u c) 2 reps k /\ s' = draws E reps (i - 1) s /\
       ((1 <= i)%nat -> forall d n, (d < 2)%nat -> (n < reps)%nat -> get3 (ps_F c) d n 0 = listfn y1 d) /\ (forall d n, get3 (ps_u c) d n 0 = 0) /\
       forall t d n, (t + 1 < i)%nat -> (d < 2)%nat -> (n < reps)%nat ->
         get3 (ps_u c) d n (t + 1) = policy nb (coef A) d t (get3 (ps_F c) 0 n t) (get3 (ps_F c) 1 n t) /\
         get3 (ps_F c) d n (t + 1) = get3 (ps_F c) d n t + 1/1000 * F d (get3 (ps_F c) 0 n t) (get3 (ps_F c) 1 n t) + 1/1000 * g ^ 2 * get3 (ps_u c) d n (t + 1) + g * noise E reps s d n t)
    k {| ps_F := zeros3 2 reps k; ps_u := zeros3 2 reps k |} s) as (c & s' & Hc & S1 & S2 & -> & G0 & G1 & G2).
  - cbn [ps_F ps_u]. split; [apply sh_zeros|]. split; [apply sh_zeros|]. split; [reflexivity|]. split; [lia|]. split; [intros; apply get3_zeros|intros; lia].
  - intros i c s' Hi (S1 & S2 & -> & G0 & G1 & G2). destruct (Nat.eq_dec i 0) as [ -> |Hi0].
    + unfold ps_body. cbn [Nat.eqb]. unfold lift. destruct (pin2_tot reps (ps_F c) k y1 S1 Hk Hy1) as (B & HB & SB). rewrite HB. cbn [rbind]. eexists _, _. split; [reflexivity|]. cbn [ps_F ps_u].
      split; [exact SB|]. split; [exact S2|]. split; [reflexivity|]. split; [|split; [exact G1|intros; lia]].
      intros _ d n Hd Hn. apply (pin_ok 2 reps k y1 0 _ _ S1) in HB. destruct HB as (_ & _ & _ & G & _). unfold get3. rewrite (G 0%nat) by (apply pyidx_0; lia). now rewrite get_mk by auto.
    + unfold ps_body. destruct (Nat.eqb_spec i 0) as [Nz|Nz]; [lia|]. unfold bind, normal, lift. cbn [nsqrt dt nmilli nlit ROps]. change (IZR (Zpos 1) / IZR (Zpos 1000)) with (1 / 1000).
      set (sn := draws E reps (i - 1) s) in *. replace (Z.of_nat i - 1)%Z with (Z.of_nat (i - 1)) by lia.
      pose proof S1 as (W1 & D1 & N1 & K1). pose proof S2 as (W2 & D2 & N2 & K2). rewrite getsl_nat by lia. destruct (sh_slice _ _ _ _ (i-1) S1 ltac:(lia)) as (Wz & Rz & Cz).
      rewrite (uf_ok nb k A _ (i-1) HA Rz Hnb ltac:(lia)). rewrite Cz. rewrite setsl_nat by (try apply wf_mk; cbn; lia).
      destruct (HF (slice (ps_F c) (i-1)) Rz) as (V & HV & RV & CV & GV). rewrite HV. rewrite Cz in CV, GV.
      rewrite (bc2_same nadd (slice (ps_F c) (i-1)) (smul _ V) 2 reps) by (cbn; auto). rewrite (bc2_same nadd _ _ 2 reps) by (cbn; auto).
      destruct (x_normal E sn (sqrt (1/1000)) 2 reps) as [W s2] eqn:Hn.
      rewrite (bc2_same nadd _ _ 2 reps) by (cbn; auto). cbn [rbind]. rewrite setsl_nat by (try apply wf_mk; cbn; lia). cbn [rbind].
      eexists _, _. split; [reflexivity|]. cbn [ps_F ps_u].
      split; [apply sh_set; auto; try lia; try apply wf_mk; reflexivity|]. split; [apply sh_set; auto; try lia; try apply wf_mk; reflexivity|]. split.
      { replace (Datatypes.S i - 1)%nat with (Datatypes.S (i - 1)) by lia. cbn [draws]. fold sn. now rewrite Hn. }
      split; [|split].
      * intros _ d n Hd Hnn. unfold get3. rewrite slice_set_other by lia. apply G0; auto; lia.
      * intros d n. unfold get3. rewrite slice_set_other by lia. apply G1.
      * intros t d n Ht Hd Hnn. unfold get3. destruct (Nat.eq_dec (t + 1) i) as [<-|Hti].
        -- replace (t + 1 - 1)%nat with t in * by lia. rewrite !slice_set_same by (auto; lia). rewrite !(slice_set_other (ps_F c) (t + 1) _ t) by lia.
           assert (XW : noise E reps s d n t = W d n) by (unfold noise; replace (draws E reps t s) with sn by (unfold sn; f_equal; lia); now rewrite Hn).
           unfold smul. rewrite ?mmap1_mk, !get_mk by auto. rewrite get_mmap1 by lia. rewrite GV by auto. split; [reflexivity|]. cbn [nmul nadd ROps]. rewrite XW. unfold nsq. cbn [nmul ROps pow]. ring.
        -- rewrite !(slice_set_other _ i) by lia. apply G2; lia.
  - exists c. split; [exact Hc|]. split; [exact S1|]. split; [exact S2|]. split.
    + intros d n Hd Hn. split; [apply G1|]. intros t Ht. now apply G2.
    + intros d n Hd Hn. split; [apply G0; auto; lia|]. intros t Ht. destruct (G2 t d n Ht Hd Hn) as (Q1 & Q2). split.
      * rewrite Q1. unfold policy. rewrite <- sumn_scal. apply sumn_ext. intros. ring.
      * rewrite Q2. ring.
Qed.

(** ** the two numbers of the figure *)
Lemma spread n a : INR n * sumn n (fun i => a i ^ 2) - sumn n a ^ 2 = / 2 * sumn n (fun i => sumn n (fun j => (a i - a j) ^ 2)).
Proof.
  rewrite (sumn_ext n (fun i => sumn n (fun j => (a i - a j) ^ 2)) (fun i => (INR n * a i ^ 2 - 2 * a i * sumn n a) + sumn n (fun j => a j ^ 2))).
  - rewrite sumn_plus, sumn_minus, sumn_const, sumn_scal, sumn_scal_r. rewrite sumn_scal. field.
  - intros i Hi. rewrite (sumn_ext n _ (fun j => (a i ^ 2 - 2 * a i * a j) + a j ^ 2)) by (intros; ring). rewrite sumn_plus, sumn_minus, sumn_const, sumn_scal. ring.
Qed.
(** control_number: the squared sum of the norms of the recorded controls over T/h.  It is at most the sum of the squared norms, with equality only if the
    norm is the same at all times; the controls are recorded from index 1 on and the last one is left out.  terminal_number: the distance of the end point to the target. *)
Theorem C79_numbers (u : arr3 R) reps k r Tend y2 : sh u 2 reps k -> (2 <= k)%nat -> Tend = INR (k - 1) * (1/1000) ->
  let nrm := fun t => sqrt (get3 u 0 r t ^ 2 + get3 u 1 r t ^ 2) in
  control_number Tend u r = sumn (k - 1) nrm ^ 2 / INR (k - 1) /\
  control_number Tend u r <= sumn (k - 1) (fun t => get3 u 0 r t ^ 2 + get3 u 1 r t ^ 2) /\
  (control_number Tend u r = sumn (k - 1) (fun t => get3 u 0 r t ^ 2 + get3 u 1 r t ^ 2) <-> forall t, (t < k - 1)%nat -> nrm t = nrm 0%nat) /\
  (get3 u 0 r 0 = 0 -> get3 u 1 r 0 = 0 -> control_number Tend u r = sumn (k - 1) (fun t => get3 u 0 r t ^ 2 + get3 u 1 r t ^ 2) ->
     forall t, (t < k - 1)%nat -> get3 u 0 r t = 0 /\ get3 u 1 r t = 0) /\
  (forall F, sh F 2 reps k -> terminal_number y2 F r = sqrt ((get3 F 0 r (k - 1) - listfn y2 0) ^ 2 + (get3 F 1 r (k - 1) - listfn y2 1) ^ 2)).
Proof.
  intros (_ & _ & _ & K) Hk HT nrm.
  assert (PI : 0 < INR (k - 1)) by (apply lt_0_INR; lia).
  assert (C : control_number Tend u r = sumn (k - 1) nrm ^ 2 / INR (k - 1)).
  { unfold control_number. rewrite K, nsum_seq. unfold nsq at 1, dt, nmilli. cbn [ndiv nmul nlit ROps]. rewrite HT.
    rewrite (sumn_ext (k-1) _ nrm).
    - cbn [pow]. field. lra.
    - intros t _. unfold nrm. cbn [map seq nsum fold_right nadd nsqrt ROps]. unfold nsq. cbn [nmul nzero ROps]. f_equal. cbn. ring. }
  assert (SQ : forall t, nrm t ^ 2 = get3 u 0 r t ^ 2 + get3 u 1 r t ^ 2) by (intro t; unfold nrm; rewrite pow2_sqrt; [reflexivity|nra]).
  assert (SP := spread (k - 1) nrm). rewrite (sumn_ext (k-1) (fun i => nrm i ^ 2) _ (fun i _ => SQ i)) in SP.
  assert (P0 : 0 <= sumn (k - 1) (fun i => sumn (k - 1) (fun j => (nrm i - nrm j) ^ 2))) by (apply sumn_ge0; intros; apply sumn_ge0; intros; apply pow2_ge_0).
  set (E := sumn (k - 1) (fun t => get3 u 0 r t ^ 2 + get3 u 1 r t ^ 2)) in *.
  assert (EQ : E - sumn (k - 1) nrm ^ 2 / INR (k - 1) = / 2 * sumn (k - 1) (fun i => sumn (k - 1) (fun j => (nrm i - nrm j) ^ 2)) / INR (k - 1)).
  { rewrite <- SP. field. lra. }
  assert (IFF : control_number Tend u r = E <-> forall t, (t < k - 1)%nat -> nrm t = nrm 0%nat).
  { rewrite C. split.
    - intro Q. assert (Z0 : sumn (k - 1) (fun i => sumn (k - 1) (fun j => (nrm i - nrm j) ^ 2)) = 0).
      { rewrite Q in EQ. rewrite Rminus_diag_eq in EQ by reflexivity. apply (Rmult_eq_compat_r (INR (k - 1))) in EQ. unfold Rdiv in EQ. rewrite Rmult_assoc, Rinv_l in EQ by lra. lra. }
      intros t Ht. assert (Z1 := sumn_0_inv _ _ ltac:(intros; apply sumn_ge0; intros; apply pow2_ge_0) Z0 t Ht). cbv beta in Z1.
      assert (Z2 := sumn_0_inv _ _ ltac:(intros; apply pow2_ge_0) Z1 0%nat ltac:(lia)). cbv beta in Z2. apply Rsqr_0_uniq in Z2 || (assert (nrm t - nrm 0%nat = 0) by nra; lra). 
    - intro Q. assert (Z0 : sumn (k - 1) (fun i => sumn (k - 1) (fun j => (nrm i - nrm j) ^ 2)) = 0).
      { apply sumn_0. intros i Hi. apply sumn_0. intros j Hj. rewrite (Q i Hi), (Q j Hj). ring. }
      rewrite Z0 in EQ. lra. }
  split; [exact C|]. split; [|split; [exact IFF|split]].
  - rewrite C. assert (0 <= / 2 * sumn (k - 1) (fun i => sumn (k - 1) (fun j => (nrm i - nrm j) ^ 2)) / INR (k - 1)); [|lra]. apply Rmult_le_pos; [lra|]. left. now apply Rinv_0_lt_compat.
  - intros U0 U1 Q t Ht. apply IFF with (t := t) in Q; [|exact Ht]. assert (X := SQ t). rewrite Q, (SQ 0%nat), U0, U1 in X. split; nra.
  - intros F (_ & _ & _ & KF). unfold terminal_number. rewrite KF. cbn [map seq nsum fold_right nadd nsqrt ROps]. unfold nsq, listfn. cbn [nmul nsub nzero ROps]. f_equal. cbn. ring.
Qed.

(** ** a pseudo-inverse, a drift and a training with an update: the hypotheses can be met *)
Definition real_pinv (H : mat R) : res (mat R) := Ok (mk (mr H) (mr H) (epsilon (inhabits (fun _ _ => 0)) (pseudo_inverse (mr H) (get H)))).
Lemma real_pinv_ok : pinv_contract real_pinv.
Proof.
  intros H Hs Hsym. eexists. split; [reflexivity|]. split; [reflexivity|]. split; [reflexivity|].
  pose proof (epsilon_spec (inhabits (fun _ _ : nat => 0)) _ (pseudo_inverse_exists (mr H) (get H) Hsym)) as (P1 & P2). split; intros i j Hi Hj.
  - etransitivity; [|exact (P1 i j Hi Hj)]. apply sumn_ext. intros p Hp. f_equal. apply sumn_ext. intros q Hq. now rewrite get_mk by auto.
  - etransitivity; [|etransitivity; [exact (P2 i j Hi Hj)|]]; apply sumn_ext; intros p Hp; now rewrite get_mk by auto.
Qed.
Lemma fate_map_ok (q : fate R) : drift_map (fate_map q) (fun d x y => if Nat.eqb d 0 then nc0 q x y else nc1 q x y).
Proof.
  intros z Hz. unfold fate_map. rewrite Hz. cbn [Nat.ltb Nat.leb]. eexists. split; [reflexivity|]. split; [reflexivity|]. split; [reflexivity|]. intros d n Hd Hn. rewrite get_mk by auto. reflexivity.
Qed.
Lemma nc0_bound x y : -x <= nc0 fate_script x y <= 2 - x.
Proof.
  unfold nc0, fate_script. cbn [p1 p2 nadd nsub nmul ndiv ROps]. rewrite !ExampleSystems.pow_R. unfold nhalf. cbn [nlit ROps].
  assert (X : forall u v, 0 < u -> 0 <= v -> 0 <= u / (u + v) <= 1 /\ 0 <= v / (u + v) <= 1).
  { intros u v Hu Hv. assert (0 < u + v) by lra. split; (split; [apply Rmult_le_pos; [lra|left; now apply Rinv_0_lt_compat]|apply Rmult_le_reg_r with (u + v); [auto|]; unfold Rdiv; rewrite Rmult_assoc, Rinv_l by lra; lra]). }
  assert (P4 : forall v : R, 0 <= v ^ 4) by (intro v; replace (v ^ 4) with ((v ^ 2) ^ 2) by ring; apply pow2_ge_0).
  assert (PH : 0 < (1 / 2) ^ 4) by (apply pow_lt; lra).
  pose proof (X ((1/2)^4) (x ^ 4) PH (P4 x)). pose proof (X ((1/2)^4) (y ^ 4) PH (P4 y)). lra.
Qed.

(** the script's drift, features, noise and learning rate, from (1.996, 0.004) to (1,1), with two paths of one step: two simulations, one update *)
Example C78_example : let F := fun d x y => if Nat.eqb d 0 then nc0 fate_script x y else nc1 fate_script x y in
  exists c A Z U w a0 a1 c1 c2,
    pice RealExt real_pinv (fate_map fate_script) 1 (1/20) 6 2 [1996/1000; 4/1000] [1; 1] [0; 1/1000] 3 0%nat = (Ok (1%nat, c), 2%nat) /\
    pice_history 6 2 2 1 (1/1000) 1 (1/20) F (listfn [1996/1000; 4/1000]) (listfn [1; 1]) (fun i => noise RealExt 2 (draws RealExt 2 (i * 1) 0%nat)) A Z U w a0 a1 c1 c2.
Proof.
  intro F. destruct (C78_training RealExt real_pinv (fate_map fate_script) F 1 (1/20) 6 2 [1996/1000; 4/1000] [1; 1] [0; 1/1000] 3 0%nat real_pinv_ok (fate_map_ok _)) as
    (it & c & A & Z & U & w & a0 & a1 & c1 & c2 & HR & Hit & HH & _ & _ & HC); try (cbn; lia). cbn [List.length] in *.
  assert (it = 1%nat) as ->.
  { destruct (Nat.eq_dec it 1) as [|Hne]; [auto|]. exfalso. assert (it = 0%nat) by lia. subst it. pose proof HH as HH'. destruct (HC ltac:(lia)) as (Q & _). destruct HH as (_ & _ & _ & _ & _ & H1 & _). destruct (H1 0%nat ltac:(lia)) as (D & _).
    assert (B : forall n, (n < 2)%nat -> 19 / 10 <= Z 0%nat 0%nat n 1%nat).
    { intros n Hn. destruct (D 0%nat n ltac:(lia) Hn) as (D0 & D1). destruct (D1 0%nat ltac:(lia)) as (_ & D2). cbn [Nat.add] in D2. rewrite D2, D0.
      assert (U 0%nat 0%nat n 0%nat = 0) as ->. { eapply C78_first_iteration; [exact HH'|lia|exact Hn|lia]. }
      unfold F. cbn [Nat.eqb]. pose proof (nc0_bound (Z 0%nat 0%nat n 0%nat) (Z 0%nat 1%nat n 0%nat)) as (B1 & _). rewrite D0 in B1. 
      assert (0 <= noise RealExt 2 (draws RealExt 2 (0 * (2 - 1)) 0%nat) 0%nat n 0%nat).
      { unfold noise. cbn [x_normal RealExt fst]. apply Rmult_le_pos; [apply sqrt_pos|apply pos_INR]. }
      unfold listfn in *. cbn [nth] in *. lra. }
    unfold mean_end, mean in Q. cbn [sumn Nat.sub INR] in Q. pose proof (B 0%nat ltac:(lia)). pose proof (B 1%nat ltac:(lia)). unfold listfn in Q. cbn [nth] in Q.
    unfold Rabs in Q. destruct (Rcase_abs _) in Q; lra. }
  exists c, A, Z, U, w, a0, a1, c1, c2. split; [exact HR|]. exact HH.
Qed.
