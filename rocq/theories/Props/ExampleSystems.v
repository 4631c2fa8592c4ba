(** C75: the two-dimensional example systems: drifts, potentials, equilibria, and the derivatives the scripts compute. *)
From Coq Require Import String List ZArith Reals Lia Lra Bool.
From Verif Require Import Base.Num Base.Py Base.Arr Lib.ArrLemmas Model.Ext Model.DPFC Model.Examples Spec.ExampleSpec Spec.RealSpec Lib.RBase.
Import ListNotations.
Local Open Scope R_scope.

Lemma pow_R (x : R) n : npow x n = x ^ n.
Proof.
  induction n as [|n IH]; [reflexivity|]. destruct n; [simpl; ring|]. change (npow x (S (S n))) with (x * npow x (S n)). rewrite IH. reflexivity.
Qed.
Lemma four_R : nfour = 4. Proof. unfold nfour. cbn. field. Qed.
Lemma two_R : ntwo = 2. Proof. unfold ntwo. cbn. field. Qed.
Lemma half_R : nhalf = 1 / 2. Proof. reflexivity. Qed.
Ltac toR := rewrite ?pow_R, ?four_R, ?two_R in *; cbn [nadd nsub nmul ndiv nopp none1 nsq ROps] in *; unfold nsq in *; cbn [nadd nsub nmul ndiv nopp none1 ROps] in *.

(** ** the conservative system *)
Lemma co0_R (b x y : R) : co0 b x y = - 4 * b * x ^ 3 + x * (4 * b * y - 2) + 2.
Proof. unfold co0. toR. ring. Qed.
Lemma co1_R (b x y : R) : co1 b x y = - 2 * b * (y - x ^ 2).
Proof. unfold co1. toR. ring. Qed.

(** the drift is minus the gradient of the Rosenbrock potential *)
Theorem C75_conservative (b x y : R) :
  partial1 (rosenbrock b) x y (- co0 b x y) /\ partial2 (rosenbrock b) x y (- co1 b x y).
Proof.
  rewrite co0_R, co1_R. unfold partial1, partial2, rosenbrock. split.
  - assert (H : derivable_pt_lim (fun s => b * (y - s ^ 2) ^ 2 + (1 - s) ^ 2) x (b * (INR 2 * (y - x ^ 2) ^ 1 * (0 - INR 2 * x ^ 1)) + INR 2 * (1 - x) ^ 1 * (0 - 1))).
    { apply derivable_pt_lim_plus.
      - apply (derivable_pt_lim_scal (fun s => (y - s ^ 2) ^ 2)).
        apply (derivable_pt_lim_comp (fun s => y - s ^ 2) (fun u => u ^ 2)); [|apply (derivable_pt_lim_pow _ 2)].
        apply derivable_pt_lim_minus; [apply derivable_pt_lim_const|apply (derivable_pt_lim_pow _ 2)].
      - apply (derivable_pt_lim_comp (fun s => 1 - s) (fun u => u ^ 2)); [|apply (derivable_pt_lim_pow _ 2)].
        apply derivable_pt_lim_minus; [apply derivable_pt_lim_const|apply derivable_pt_lim_id]. }
    eapply eq_ind; [exact H|]. simpl. ring.
  - assert (H : derivable_pt_lim (fun s => b * (s - x ^ 2) ^ 2 + (1 - x) ^ 2) y (b * (INR 2 * (y - x ^ 2) ^ 1 * (1 - 0)) + 0)).
    { apply derivable_pt_lim_plus; [|apply derivable_pt_lim_const].
      apply (derivable_pt_lim_scal (fun s => (s - x ^ 2) ^ 2)).
      apply (derivable_pt_lim_comp (fun s => s - x ^ 2) (fun u => u ^ 2)); [|apply (derivable_pt_lim_pow _ 2)].
      apply derivable_pt_lim_minus; [apply derivable_pt_lim_id|apply derivable_pt_lim_const]. }
    eapply eq_ind; [exact H|]. simpl. ring.
Qed.
(** its only equilibrium is (1, 1) *)
Theorem C75_conservative_equilibrium (b x y : R) : 0 < b -> (co0 b x y = 0 /\ co1 b x y = 0 <-> x = 1 /\ y = 1).
Proof.
  intro B. rewrite co0_R, co1_R. split.
  - intros (H0 & H1). assert (Y : y = x ^ 2) by nra. subst y. assert (x = 1) by nra. subst x. split; [reflexivity|ring].
  - intros [ -> -> ]. split; ring.
Qed.
(** the path constraint of the script: the negative squared distance of the second coordinate from the target's; every particle on its own *)
Theorem C75_conservative_path (y2 : list R) (x : mat R) : (2 <= List.length y2)%nat -> (2 <= mr x)%nat ->
  exists u : mat R, co_U y2 x = Ok u /\ mr u = 1%nat /\ mc u = mc x
    /\ forall j, (j < mc x)%nat -> get u 0 j = - (get x 1 j - nth 1 y2 0) ^ 2.
Proof.
  intros Hy Hx. unfold co_U. replace (2 <=? mr x)%nat with true by (symmetry; apply Nat.leb_le; lia).
  destruct y2 as [|a [|c y2]]; cbn in Hy; try lia.
  replace (pyget (a :: c :: y2) 1) with (@Ok R c).
  2:{ unfold pyget, pyidx. cbn [List.length Z.leb Z.compare]. replace (1 <? Z.of_nat (S (S (List.length y2))))%Z with true; [reflexivity|]. symmetry. apply Z.ltb_lt. lia. }
  cbn [bind]. eexists; split; [reflexivity|]. split; [reflexivity|]. split; [reflexivity|]. intros j Hj. rewrite get_mk by lia. cbn [nth]. toR. ring.
Qed.

(** ** the cell-differentiation system.  Every statement is about the parameters of the script (p1 = p2 = p3 = p4 = 1/2) unless a [fate] is quantified. *)
Definition uniform_fate (p : R) : fate R := {| p1 := p; p2 := p; p3 := p; p4 := p |}.
Lemma script_uniform : fate_script = uniform_fate (1 / 2). Proof. reflexivity. Qed.
Lemma nc0_R p x y : nc0 (uniform_fate p) x y = fate1 p x y.
Proof. unfold nc0, fate1, act, rep, uniform_fate. cbn [p1 p2 p3 p4]. toR. ring. Qed.
Lemma nc1_R p x y : nc1 (uniform_fate p) x y = fate2 p x y.
Proof. unfold nc1, fate2, act, rep, uniform_fate. cbn [p1 p2 p3 p4]. toR. ring. Qed.
Lemma den_pos p x : 0 < p -> 0 < p ^ 4 + x ^ 4.
Proof. intro P. assert (0 < p ^ 4) by (apply pow_lt; lra). assert (0 <= x ^ 4) by (replace (x ^ 4) with ((x * x) * (x * x)) by ring; nra). lra. Qed.
Lemma pow4_ge0 x : 0 <= x ^ 4. Proof. replace (x ^ 4) with ((x * x) * (x * x)) by ring. nra. Qed.

(** what f is, for a 1-d and the single coordinates of a 2-d argument *)
Theorem C75_fate_drift (x : list R) (a b : R) : pyget x 0 = Ok a -> pyget x 1 = Ok b ->
  nc_f fate_script x = Ok [fate1 (1 / 2) a b; fate2 (1 / 2) a b].
Proof. intros Ha Hb. unfold nc_f. rewrite Ha, Hb. cbn [rbind]. rewrite script_uniform, nc0_R, nc1_R. reflexivity. Qed.

(** the two genes are interchangeable *)
Theorem C75_fate_symmetric (x y u v : R) : nc_f fate_script [x; y] = Ok [u; v] -> nc_f fate_script [y; x] = Ok [v; u].
Proof.
  intro H. rewrite (C75_fate_drift [x; y] x y eq_refl eq_refl) in H. injection H as <- <-. rewrite (C75_fate_drift [y; x] y x eq_refl eq_refl). reflexivity.
Qed.

Lemma act_D p x : 0 < p -> derivable_pt_lim (act p) x (4 * p ^ 4 * x ^ 3 / (p ^ 4 + x ^ 4) ^ 2).
Proof.
  intro P. pose proof (den_pos p x P) as D.
  assert (H : derivable_pt_lim (div_fct (fun s => s ^ 4) (fun s => p ^ 4 + s ^ 4)) x
     ((INR 4 * x ^ 3 * (p ^ 4 + x ^ 4) - (0 + INR 4 * x ^ 3) * x ^ 4) / Rsqr (p ^ 4 + x ^ 4))).
  { apply (derivable_pt_lim_div (fun s => s ^ 4) (fun s => p ^ 4 + s ^ 4) x (INR 4 * x ^ 3) (0 + INR 4 * x ^ 3)); [apply (derivable_pt_lim_pow _ 4)| |lra]. apply (derivable_pt_lim_plus (fun _ => p ^ 4) (fun s => s ^ 4)); [apply derivable_pt_lim_const|apply (derivable_pt_lim_pow _ 4)]. }
  replace (4 * p ^ 4 * x ^ 3 / (p ^ 4 + x ^ 4) ^ 2) with ((INR 4 * x ^ 3 * (p ^ 4 + x ^ 4) - (0 + INR 4 * x ^ 3) * x ^ 4) / Rsqr (p ^ 4 + x ^ 4)); [exact H|].
  unfold Rsqr. replace (INR 4) with 4 by (simpl; ring). field. lra.
Qed.
Lemma rep_D p x : 0 < p -> derivable_pt_lim (rep p) x (- (4 * p ^ 4 * x ^ 3) / (p ^ 4 + x ^ 4) ^ 2).
Proof.
  intro P. pose proof (den_pos p x P) as D.
  assert (H : derivable_pt_lim (div_fct (fun s => p ^ 4) (fun s => p ^ 4 + s ^ 4)) x
     ((0 * (p ^ 4 + x ^ 4) - (0 + INR 4 * x ^ 3) * p ^ 4) / Rsqr (p ^ 4 + x ^ 4))).
  { apply (derivable_pt_lim_div (fun _ => p ^ 4) (fun s => p ^ 4 + s ^ 4) x 0 (0 + INR 4 * x ^ 3)); [apply derivable_pt_lim_const| |lra]. apply (derivable_pt_lim_plus (fun _ => p ^ 4) (fun s => s ^ 4)); [apply derivable_pt_lim_const|apply (derivable_pt_lim_pow _ 4)]. }
  replace (- (4 * p ^ 4 * x ^ 3) / (p ^ 4 + x ^ 4) ^ 2) with ((0 * (p ^ 4 + x ^ 4) - (0 + INR 4 * x ^ 3) * p ^ 4) / Rsqr (p ^ 4 + x ^ 4)); [exact H|].
  unfold Rsqr. replace (INR 4) with 4 by (simpl; ring). field. lra.
Qed.
Definition true_diag (p x : R) : R := 4 * p ^ 4 * x ^ 3 / (p ^ 4 + x ^ 4) ^ 2 - 1.
Lemma fate1_D1 p x y : 0 < p -> partial1 (fate1 p) x y (true_diag p x).
Proof.
  intro P. unfold partial1, fate1, true_diag. apply derivable_pt_lim_minus; [|apply derivable_pt_lim_id].
  replace (4 * p ^ 4 * x ^ 3 / (p ^ 4 + x ^ 4) ^ 2) with (4 * p ^ 4 * x ^ 3 / (p ^ 4 + x ^ 4) ^ 2 + 0) by ring.
  apply derivable_pt_lim_plus; [now apply act_D|apply derivable_pt_lim_const].
Qed.
Lemma fate1_D2 p x y : 0 < p -> partial2 (fate1 p) x y (nc_off p y).
Proof.
  intro P. unfold partial2, fate1. pose proof (den_pos p y P). 
  replace (nc_off p y) with (0 + - (4 * p ^ 4 * y ^ 3) / (p ^ 4 + y ^ 4) ^ 2 - 0) by (unfold nc_off; toR; field; lra).
  apply derivable_pt_lim_minus; [|apply derivable_pt_lim_const]. apply derivable_pt_lim_plus; [apply derivable_pt_lim_const|now apply rep_D].
Qed.
(** the two off-diagonal entries of gradfs are partial derivatives of f *)
Theorem C75_fate_cross_derivatives (x y : R) :
  partial2 (fate1 (1 / 2)) x y (nth 1 (nc_gradfs fate_script x y) 0) /\ partial1 (fate2 (1 / 2)) x y (nth 2 (nc_gradfs fate_script x y) 0).
Proof.
  cbn [nc_gradfs nth]. rewrite script_uniform. cbn [uniform_fate p1 p2 p3 p4]. split; [apply fate1_D2; lra|].
  exact (fate1_D2 (1 / 2) y x ltac:(lra)).
Qed.
Lemma diag_error p x : 0 < p -> nc_diag p x - true_diag p x = - 4 * x ^ 7 * (p ^ 4 + x ^ 4 - 1) / (p ^ 4 + x ^ 4) ^ 2.
Proof. intro P. pose proof (den_pos p x P). unfold nc_diag, true_diag. toR. field. lra. Qed.
Lemma diag_ok_iff p x : 0 < p -> (nc_diag p x = true_diag p x <-> x = 0 \/ p ^ 4 + x ^ 4 = 1).
Proof.
  intro P. pose proof (den_pos p x P) as D. pose proof (diag_error p x P) as Er. split.
  - intro Q. rewrite Q, Rminus_diag_eq in Er by reflexivity. assert (Z0 : x ^ 7 * (p ^ 4 + x ^ 4 - 1) = 0).
    { assert (N : (p ^ 4 + x ^ 4) ^ 2 <> 0) by (apply pow_nonzero; lra). apply (Rmult_eq_reg_r (/ (p ^ 4 + x ^ 4) ^ 2)); [|now apply Rinv_neq_0_compat].
      unfold Rdiv in Er. lra. }
    apply Rmult_integral in Z0. destruct Z0 as [Z0|Z0]; [left|right; lra].
    destruct (Req_dec x 0) as [|N]; [assumption|]. exfalso. exact (pow_nonzero x 7 N Z0).
  - intro Q. assert (nc_diag p x - true_diag p x = 0); [|lra]. rewrite Er. destruct Q as [ Q | Q]; [rewrite Q in *|rewrite Q]; field; lra.
Qed.
(** the diagonal entries of gradfs are not: the one for coordinate x is the partial derivative exactly when x = 0 or x^4 = 15/16, and
    divf is not the divergence of f: at the target (1, 1) of the script it gives -2, the divergence is larger by 128/289 *)
Theorem C75_fate_diagonal (x y : R) :
  (partial1 (fate1 (1 / 2)) x y (nth 0 (nc_gradfs fate_script x y) 0) <-> x = 0 \/ x ^ 4 = 15 / 16)
  /\ (partial2 (fate2 (1 / 2)) x y (nth 3 (nc_gradfs fate_script x y) 0) <-> y = 0 \/ y ^ 4 = 15 / 16).
Proof.
  assert (G : forall x y, partial1 (fate1 (1 / 2)) x y (nc_diag (1 / 2) x) <-> x = 0 \/ x ^ 4 = 15 / 16).
  { clear. intros x y. pose proof (fate1_D1 (1 / 2) x y ltac:(lra)) as D. pose proof (diag_ok_iff (1 / 2) x ltac:(lra)) as I.
    assert (J : nc_diag (1 / 2) x = true_diag (1 / 2) x <-> x = 0 \/ x ^ 4 = 15 / 16) by (rewrite I; split; (intros [|]; [left|right]; lra)).
    rewrite <- J. split; [intro H; exact (uniqueness_limite _ _ _ _ H D)|intros ->; exact D]. }
  rewrite script_uniform. cbn [nc_gradfs nth uniform_fate p1 p2 p3 p4]. split; [apply G|]. exact (G y x).
Qed.
Theorem C75_fate_divergence :
  nc_divf fate_script 1 1 = -2
  /\ exists dx dy, partial1 (fate1 (1 / 2)) 1 1 dx /\ partial2 (fate2 (1 / 2)) 1 1 dy /\ dx + dy = -2 + 128 / 289.
Proof.
  rewrite script_uniform. unfold nc_divf. cbn [uniform_fate p1 p2 p3 p4]. split.
  - unfold nc_diag. toR. field.
  - exists (true_diag (1 / 2) 1), (true_diag (1 / 2) 1). split; [apply fate1_D1; lra|]. split; [exact (fate1_D1 (1 / 2) 1 1 ltac:(lra))|]. unfold true_diag. field.
Qed.
(** consequently the "linearised drift" flin has -x + ... where the linearisation of f at (1, 1) has (64/289 - 1) x + ... *)
Theorem C75_fate_linearisation (a b : R) :
  nc_flin fate_script (1, 1) (a, b) = (- (a - 1) - 64 / 289 * (b - 1), - (b - 1) - 64 / 289 * (a - 1))
  /\ partial1 (fate1 (1 / 2)) 1 1 (64 / 289 - 1) /\ partial2 (fate1 (1 / 2)) 1 1 (- 64 / 289).
Proof.
  rewrite script_uniform. unfold nc_flin. cbn [uniform_fate p1 p2 p3 p4 fst snd]. split; [|split].
  - rewrite nc0_R, nc1_R. unfold fate1, fate2, act, rep, nc_diag, nc_off. cbn [nsum ROps fold_right]. toR. f_equal; field.
  - replace (64 / 289 - 1) with (true_diag (1 / 2) 1) by (unfold true_diag; field). apply fate1_D1. lra.
  - replace (- 64 / 289) with (nc_off (1 / 2) 1) by (unfold nc_off; toR; field). apply fate1_D2. lra.
Qed.
(** flin is, for every target, the affine function with the value of f at the target and the slopes of gradfs; hence the columns of m_t *)
Theorem C75_fate_affine (q : fate R) (a b x y : R) :
  nc_flin q (a, b) (x, y) = (nc0 q a b + (nth 0 (nc_gradfs q a b) 0 * (x - a) + nth 1 (nc_gradfs q a b) 0 * (y - b)),
                             nc1 q a b + (nth 2 (nc_gradfs q a b) 0 * (x - a) + nth 3 (nc_gradfs q a b) 0 * (y - b))).
Proof. unfold nc_flin. cbn [nc_gradfs nth fst snd nsum ROps fold_right]. toR. f_equal; ring. Qed.
Theorem C75_fate_mean (q : fate R) (a b : R) : nc_mt q (a, b) 0 = (a, b) /\ nc_mt q (a, b) 1 = (a + nc0 q a b / 1000, b + nc1 q a b / 1000) /\
  forall ti, let '(x, y) := nc_mt q (a, b) ti in
    nc_mt q (a, b) (S ti) = (x + (nc0 q a b + (nth 0 (nc_gradfs q a b) 0 * (x - a) + nth 1 (nc_gradfs q a b) 0 * (y - b))) / 1000,
                             y + (nc1 q a b + (nth 2 (nc_gradfs q a b) 0 * (x - a) + nth 3 (nc_gradfs q a b) 0 * (y - b))) / 1000).
Proof.
  assert (G : forall ti, let '(x, y) := nc_mt q (a, b) ti in
    nc_mt q (a, b) (S ti) = (x + (nc0 q a b + (nth 0 (nc_gradfs q a b) 0 * (x - a) + nth 1 (nc_gradfs q a b) 0 * (y - b))) / 1000,
                             y + (nc1 q a b + (nth 2 (nc_gradfs q a b) 0 * (x - a) + nth 3 (nc_gradfs q a b) 0 * (y - b))) / 1000)).
  { intro ti. cbn [nc_mt]. destruct (nc_mt q (a, b) ti) as (x & y). rewrite C75_fate_affine. cbn [fst snd]. unfold nmilli. cbn [nlit ROps]. toR. f_equal; field. }
  split; [reflexivity|]. split; [|exact G]. specialize (G 0%nat). cbn [nc_mt] in G |- *. rewrite G. f_equal; field.
Qed.
(** Uc = |f|^2/(2 sigma^2) + divf/2; at the target only the divergence term is left, for every sigma *)
Theorem C75_fate_Uc (q : fate R) (sigma x y : R) : sigma <> 0 ->
  nc_Uc q sigma x y = (nc0 q x y ^ 2 + nc1 q x y ^ 2) / (2 * sigma ^ 2) + nc_divf q x y / 2.
Proof. intro Hs. unfold nc_Uc. rewrite half_R. cbn [nsum ROps fold_right]. toR. field. exact Hs. Qed.
Theorem C75_fate_Uc_target (sigma : R) : sigma <> 0 -> nc_Uc fate_script sigma 1 1 = -1.
Proof.
  intro Hs. rewrite C75_fate_Uc by exact Hs. destruct C75_fate_divergence as (-> & _). rewrite script_uniform, nc0_R, nc1_R. unfold fate1, fate2, act, rep. field. exact Hs.
Qed.
(** f1 is the drift of the Brownian bridge: the straight line from any start to the target, arriving at T, is its solution; an Euler step over the
    whole remaining time lands on the target from everywhere; at T the drift is 0 *)
Theorem C75_bridge_drift (Tend : R) (y2 x : R * R) :
  nc_f1 Tend y2 x Tend = (0, 0) /\
  (forall t, t <> Tend -> (fst x + (Tend - t) * fst (nc_f1 Tend y2 x t), snd x + (Tend - t) * snd (nc_f1 Tend y2 x t)) = y2) /\
  (forall t0 t, t0 < Tend -> t < Tend ->
     let line := fun s => (fst y2 + (fst x - fst y2) * ((Tend - s) / (Tend - t0)), snd y2 + (snd x - snd y2) * ((Tend - s) / (Tend - t0))) in
     line t0 = x /\ line Tend = y2 /\
     derivable_pt_lim (fun s => fst (line s)) t (fst (nc_f1 Tend y2 (line t) t)) /\ derivable_pt_lim (fun s => snd (line s)) t (snd (nc_f1 Tend y2 (line t) t))).
Proof.
  assert (E : forall t z, t <> Tend -> nc_f1 Tend y2 z t = ((fst y2 - fst z) / (Tend - t), (snd y2 - snd z) / (Tend - t))).
  { intros t z Ht. unfold nc_f1. destruct (neqb t Tend) eqn:Q; [|reflexivity]. cbn [neqb ROps] in Q. destruct (Req_EM_T t Tend); [contradiction|discriminate]. }
  split; [|split].
  - unfold nc_f1. cbn [neqb ROps]. destruct (Req_EM_T Tend Tend); [reflexivity|contradiction].
  - intros t Ht. rewrite E by exact Ht. destruct y2 as (a & b). cbn [fst snd]. f_equal; field; lra.
  - intros t0 t H0 Ht line. assert (D : forall c e, derivable_pt_lim (fun s => e + c * ((Tend - s) / (Tend - t0))) t (- c / (Tend - t0))).
    { intros c e. replace (- c / (Tend - t0)) with (0 + c * ((0 - 1) * / (Tend - t0) + (Tend - t) * 0)) by (field; lra). apply derivable_pt_lim_plus; [apply derivable_pt_lim_const|].
      apply derivable_pt_lim_scal. apply (derivable_pt_lim_mult (fun s => Tend - s) (fun _ => / (Tend - t0))); [|apply derivable_pt_lim_const].
      apply (derivable_pt_lim_minus (fun _ => Tend) (fun s => s)); [apply derivable_pt_lim_const|apply derivable_pt_lim_id]. }
    split; [|split; [|split]].
    + unfold line. destruct x. cbn [fst snd]. f_equal; field; lra.
    + unfold line. destruct y2. cbn [fst snd]. f_equal; field; lra.
    + rewrite E by lra. unfold line. cbn [fst snd]. replace ((fst y2 - _) / (Tend - t)) with (- (fst x - fst y2) / (Tend - t0)) by (field; lra). apply D.
    + rewrite E by lra. unfold line. cbn [fst snd]. replace ((snd y2 - _) / (Tend - t)) with (- (snd x - snd y2) / (Tend - t0)) by (field; lra). apply D.
Qed.
(** the target is an exact equilibrium, hence all columns of m_t are the target *)
Theorem C75_fate_target (p : R) : 0 < p ->
  nc_f (uniform_fate p) [1; 1] = Ok [0; 0] /\ forall ti, nc_mt (uniform_fate p) (1, 1) ti = (1, 1).
Proof.
  intro P. pose proof (den_pos p 1 P). assert (F1 : fate1 p 1 1 = 0) by (unfold fate1, act, rep; field; lra).
  assert (F2 : fate2 p 1 1 = 0) by (unfold fate2, act, rep; field; lra). split; [change (nc_f (uniform_fate p) [1; 1]) with (Ok [nc0 (uniform_fate p) 1 1; nc1 (uniform_fate p) 1 1]); rewrite nc0_R, nc1_R, F1, F2; reflexivity|].
  induction ti as [|t IH]; [reflexivity|]. cbn [nc_mt]. rewrite IH. unfold nc_flin. cbn [fst snd]. rewrite nc0_R, nc1_R, F1, F2.
  cbn [nsum ROps fold_right]. toR. f_equal; ring.
Qed.
(** the start (1.996, 0.004) is not an equilibrium, but the drift there is smaller than 1e-4 in both coordinates *)
Theorem C75_fate_start :
  exists u v, nc_f fate_script [1996 / 1000; 4 / 1000] = Ok [u; v] /\ 0 < u < 1 / 10000 /\ - (1 / 10000) < v < 0.
Proof.
  eexists _, _. split; [exact (C75_fate_drift [1996 / 1000; 4 / 1000] (1996 / 1000) (4 / 1000) eq_refl eq_refl)|]. unfold fate1, fate2, act, rep.
  split; split; lra.
Qed.
(** without noise, every Euler step of length h <= 1 maps the square [0,2]^2 into itself *)
Theorem C75_fate_square (p h x y : R) : 0 < p -> 0 <= h <= 1 -> 0 <= x <= 2 -> 0 <= y <= 2 ->
  0 <= x + h * nc0 (uniform_fate p) x y <= 2 /\ 0 <= y + h * nc1 (uniform_fate p) x y <= 2.
Proof.
  rewrite nc0_R, nc1_R.
  assert (U : forall p x, 0 < p -> 0 <= act p x <= 1 /\ 0 <= rep p x <= 1).
  { clear. intros p x P. pose proof (den_pos p x P) as D. pose proof (pow4_ge0 x). assert (0 < p ^ 4) by (apply pow_lt; lra). unfold act, rep.
    assert (I : 0 < / (p ^ 4 + x ^ 4)) by now apply Rinv_0_lt_compat. assert (J : (p ^ 4 + x ^ 4) * / (p ^ 4 + x ^ 4) = 1) by (apply Rinv_r; lra).
    unfold Rdiv. set (i := / _) in *. repeat split; nra. }
  intros P Hh Hx Hy. destruct (U p x P) as (A1 & A2), (U p y P) as (A3 & A4). unfold fate1, fate2. repeat split; nra.
Qed.

Lemma const_slope (F : R -> R) c a b : a < b -> (forall s, derivable_pt_lim F s c) -> F b - F a = c * (b - a).
Proof. intros L H. destruct (MVT_cor2 F (fun _ => c) a b L (fun s _ => H s)) as (s & Q & _). exact Q. Qed.
(** the system is non-conservative: its drift is not the negative gradient of any function *)
Theorem C75_fate_no_potential :
  ~ exists V : R -> R -> R, forall x y, partial1 V x y (- nc0 fate_script x y) /\ partial2 V x y (- nc1 fate_script x y).
Proof.
  rewrite script_uniform. intros (V & H). set (p := 1 / 2) in *.
  assert (W : (V 1 2 - V 1 0) - (V 0 2 - V 0 0) = (rep p 0 - rep p 2) * (1 - 0)).
  { apply (const_slope (fun x => V x 2 - V x 0)); [lra|]. intro s. destruct (H s 2) as (A & _), (H s 0) as (B & _).
    replace (rep p 0 - rep p 2) with (- nc0 (uniform_fate p) s 2 - - nc0 (uniform_fate p) s 0) by (rewrite !nc0_R; unfold fate1; ring).
    now apply derivable_pt_lim_minus. }
  assert (U : (V 1 2 - V 0 2) - (V 1 0 - V 0 0) = (rep p 0 - rep p 1) * (2 - 0)).
  { apply (const_slope (fun y => V 1 y - V 0 y)); [lra|]. intro s. destruct (H 1 s) as (_ & A), (H 0 s) as (_ & B).
    replace (rep p 0 - rep p 1) with (- nc1 (uniform_fate p) 1 s - - nc1 (uniform_fate p) 0 s) by (rewrite !nc1_R; unfold fate2; ring).
    now apply (derivable_pt_lim_minus (fun y => V 1 y) (fun y => V 0 y)). }
  assert (R0 : rep p 0 = 1) by (unfold rep, p; field). assert (R1 : rep p 1 = 1 / 17) by (unfold rep, p; field). assert (R2 : rep p 2 = 1 / 257) by (unfold rep, p; field).
  rewrite R0, R1, R2 in *. lra.
Qed.
(** C75 is not vacuous: the quantified statements at a point that is neither an equilibrium nor on a boundary *)
Example W75_point : fate1 (1 / 2) 2 1 = 256 / 257 + 1 / 17 - 2 /\ co0 1 2 1 = -26 /\ co1 1 2 1 = 6 /\ rosenbrock 1 2 1 = 10.
Proof. rewrite co0_R, co1_R. unfold fate1, act, rep, rosenbrock. repeat split; field. Qed.
