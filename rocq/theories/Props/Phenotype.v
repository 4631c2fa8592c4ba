(** C76, continued: the moment equations, the control and the simulation of the phenotype example. *)
From Coq Require Import String List ZArith Reals Lia Lra Bool.
From Verif Require Import Base.Num Base.Py Base.Arr Lib.ArrLemmas Model.Ext Model.DPFC Model.Examples Spec.ExampleSpec Spec.RealSpec Spec.Contracts Spec.FlowSpec.
From Verif Require Import Lib.RBase Lib.RSum Lib.RMat Lib.Estimator Lib.FlowLemmas Lib.TotalLemmas Props.Flows Props.GaussScores Props.ExampleSystems.
Import ListNotations.
Local Open Scope R_scope.

(** ** the covariance equations *)
Lemma lyapunov_euler A P Q i j : (i < 2)%nat -> (j < 2)%nat ->
  derivable_pt_lim (fun h => em_cov A P Q h i j) 0 (lyapunov A P Q i j).
Proof.
  intros Hi Hj. set (c := A i 0%nat * P 0%nat 0%nat * A j 0%nat + A i 0%nat * P 0%nat 1%nat * A j 1%nat + A i 1%nat * P 1%nat 0%nat * A j 0%nat + A i 1%nat * P 1%nat 1%nat * A j 1%nat).
  assert (F : forall h, em_cov A P Q h i j = P i j + h * lyapunov A P Q i j + h ^ 2 * c).
  { intro h. unfold em_cov, lyapunov, c. destruct i as [|[|]], j as [|[|]]; try lia; cbn [Nat.eqb]; ring. }
  intros eps He. destruct (Req_dec c 0) as [Z0|N0].
  - exists (mkposreal 1 ltac:(lra)). intros h Hh _. rewrite !F, Z0. match goal with |- Rabs ?v < _ => replace v with 0 by (field; exact Hh) end. rewrite Rabs_R0. exact He.
  - assert (Pj : 0 < Rabs c) by now apply Rabs_pos_lt.
    exists (mkposreal (eps / Rabs c) ltac:(apply Rdiv_lt_0_compat; lra)). intros h Hh Hd. cbn [pos] in Hd. rewrite !F.
    match goal with |- Rabs ?v < _ => replace v with (h * c) by (field; exact Hh) end. rewrite Rabs_mult.
    apply (Rmult_lt_compat_r (Rabs c)) in Hd; [|exact Pj]. replace (eps / Rabs c * Rabs c) with eps in Hd by (field; lra). lra.
Qed.

Lemma sumn_2 f : sumn 2 f = f 0%nat + f 1%nat.
Proof. unfold sumn. cbn. ring. Qed.
Definition square2 (A : mat R) : Prop := mr A = 2%nat /\ mc A = 2%nat.
Lemma mmul2 (A B : mat R) : square2 A -> square2 B -> mmul A B = Ok (mk 2 2 (fun i j => get A i 0%nat * get B 0%nat j + get A i 1%nat * get B 1%nat j)).
Proof. intros (R1 & C1) (R2 & C2). rewrite (mmul_R A B 2 2 2) by auto. f_equal. apply mk_ext. intros. apply sumn_2. Qed.
Lemma sq_mk f : square2 (mk 2 2 f). Proof. split; reflexivity. Qed.
Lemma sq_T A : square2 A -> square2 (mT A). Proof. intros (? & ?). split; cbn; auto. Qed.
Lemma sq_smul k A : square2 A -> square2 (smul k A). Proof. intros (? & ?). split; cbn; auto. Qed.
Lemma get_T A i j : square2 A -> (i < 2)%nat -> (j < 2)%nat -> get (mT A) i j = get A j i.
Proof. intros (R1 & C1) Hi Hj. unfold mT. now rewrite get_mk by lia. Qed.

(** cell-fate script: flin_var is the right-hand side of the covariance equation of dX = A X dt + dW *)
Theorem C76_linear_covariance A P : square2 A -> square2 P -> exists V, nc_flin_var A P = Ok V /\ square2 V /\
  forall i j, (i < 2)%nat -> (j < 2)%nat ->
    derivable_pt_lim (fun h => em_cov (get A) (get P) (fun a b => if Nat.eqb a b then 1 else 0) h i j) 0 (get V i j).
Proof.
  intros HA HP. unfold nc_flin_var. rewrite !mmul2 by auto using sq_T. cbn [rbind]. rewrite (bc2_same nadd _ _ 2 2) by reflexivity. cbn [rbind].
  rewrite (bc2_same nadd _ _ 2 2) by reflexivity. eexists. split; [reflexivity|]. split; [split; reflexivity|]. intros i j Hi Hj.
  eapply eq_ind; [apply lyapunov_euler; auto|]. rewrite !get_mk by auto. unfold smul, eye. rewrite get_mmap1, get_mk by (cbn; auto). rewrite !get_T by auto.
  cbn [nadd nmul none1 nzero ROps]. unfold lyapunov. destruct (Nat.eqb i j); ring.
Qed.

(** with the matrix the script passes (from gradfs at the target) this is the covariance equation of the linearised system dX = flin(X) dt + dW *)
Theorem C76_fate_covariance (q : fate R) (a b : R) P : square2 P -> exists V J, nc_flin_var (nc_A q (a, b)) P = Ok V /\ square2 V /\
  (forall x y, nc_flin q (a, b) (x, y) = (nc0 q a b + (J 0%nat 0%nat * (x - a) + J 0%nat 1%nat * (y - b)), nc1 q a b + (J 1%nat 0%nat * (x - a) + J 1%nat 1%nat * (y - b)))) /\
  forall i j, (i < 2)%nat -> (j < 2)%nat -> derivable_pt_lim (fun h => em_cov J (get P) (fun a b => if Nat.eqb a b then 1 else 0) h i j) 0 (get V i j).
Proof.
  intro HP. destruct (C76_linear_covariance (nc_A q (a, b)) P ltac:(split; reflexivity) HP) as (V & HV & SV & D). exists V, (get (nc_A q (a, b))). split; [exact HV|]. split; [exact SV|]. split; [|exact D].
  intros x y. rewrite C75_fate_affine. unfold nc_A. rewrite !get_mk by lia. reflexivity.
Qed.

(** phenotype script: f_var is the right-hand side for the drift matrix -2 K P, with P the covariance itself *)
Lemma f_var_form K sg sg' P : square2 K -> square2 sg -> square2 sg' -> square2 P ->
  exists V, ev_f_var K sg sg' P = Ok V /\ square2 V /\ forall i j, (i < 2)%nat -> (j < 2)%nat ->
    get V i j = lyapunov (fun a b => -2 * (get K a 0%nat * get P 0%nat b + get K a 1%nat * get P 1%nat b)) (get P)
                         (fun a b => get sg a 0%nat * get sg' b 0%nat + get sg a 1%nat * get sg' b 1%nat) i j.
Proof.
  intros HK Hs Hs' HP. unfold ev_f_var. rewrite mmul2 by auto using sq_smul. cbn [rbind]. rewrite mmul2 by (auto; split; reflexivity). cbn [rbind].
  rewrite mmul2 by (auto; split; reflexivity). cbn [rbind]. rewrite (bc2_same nadd _ _ 2 2) by reflexivity. cbn [rbind].
  rewrite mmul2 by auto using sq_T. cbn [rbind]. rewrite (bc2_same nadd _ _ 2 2) by reflexivity. eexists. split; [reflexivity|]. split; [split; reflexivity|]. intros i j Hi Hj.
  rewrite !get_mk by auto. rewrite !(get_T sg') by auto. rewrite !get_T by (auto; split; reflexivity). rewrite !get_mk by auto.
  destruct HK as (RK & CK). unfold smul. rewrite !get_mmap1 by lia. cbn [nadd nmul nopp ntwo nlit ROps]. unfold lyapunov. field.
Qed.
Theorem C76_phenotype_covariance K sg sg' P : square2 K -> square2 sg -> square2 sg' -> square2 P ->
  exists V, ev_f_var K sg sg' P = Ok V /\ square2 V /\ forall i j, (i < 2)%nat -> (j < 2)%nat ->
    derivable_pt_lim (fun h => em_cov (fun a b => -2 * sumn 2 (fun l => get K a l * get P l b)) (get P)
                                      (fun a b => sumn 2 (fun l => get sg a l * get sg' b l)) h i j) 0 (get V i j).
Proof.
  intros HK Hs Hs' HP. destruct (f_var_form K sg sg' P HK Hs Hs' HP) as (V & HV & SV & G). exists V. split; [auto|]. split; [auto|]. intros i j Hi Hj.
  eapply eq_ind; [apply lyapunov_euler; auto|]. rewrite G by auto. unfold lyapunov. rewrite !sumn_2. reflexivity.
Qed.

(** the drift of the script is x -> -2 K C x with C = diag(2, 4) *)
Definition true_rate (K : mat R) (a b : nat) : R := -2 * sumn 2 (fun l => get K a l * get (ev_C (T := R)) l b).
Theorem C76_phenotype_drift K x c : square2 K -> mr x = 2%nat -> mc x = c -> exists F, ev_f K ev_C x = Ok F /\ mr F = 2%nat /\ mc F = c /\
  forall d r, (d < 2)%nat -> (r < c)%nat -> get F d r = sumn 2 (fun l => true_rate K d l * get x l r) /\
    get F d r = -4 * get K d 0%nat * get x 0%nat r - 8 * get K d 1%nat * get x 1%nat r.
Proof.
  intros HK Rx Cx. unfold ev_f. rewrite mmul2 by (auto using sq_smul; split; reflexivity). cbn [rbind]. rewrite (mmul_R _ x 2 2 c) by auto.
  eexists. split; [reflexivity|]. split; [reflexivity|]. split; [reflexivity|]. intros d r Hd Hr. rewrite get_mk by auto. unfold true_rate. rewrite !sumn_2.
  destruct HK as (RK & CK). rewrite !get_mk by auto. unfold smul, ev_C. rewrite !get_mmap1 by lia. rewrite !get_mk by auto. cbn [Nat.eqb nadd nmul nopp ntwo nfour nlit nzero ROps].
  split; field.
Qed.

(** so it is not the covariance equation of the simulated process: the stationary covariance of that process, diag(1/8, 1/16), is not
    stationary for f_var, and diag(1/2, 1/2), stationary for f_var, is not stationary for the process (noise matrix K = sg sg^T, as in the script) *)
Definition noise_matrix (sg : mat R) : mat R := mk 2 2 (fun i j => sumn 2 (fun l => get sg i l * get sg j l)).
Definition diag2 (a b : R) : mat R := mk 2 2 (fun i j => if Nat.eqb i j then (if Nat.eqb i 0 then a else b) else 0).
Definition moving (K sg P : mat R) (i j : nat) : R := lyapunov (true_rate K) (get P) (fun a b => sumn 2 (fun l => get sg a l * get sg b l)) i j.
Theorem C76_phenotype_equilibria sg : square2 sg -> 0 < get (noise_matrix sg) 0%nat 0%nat ->
  let K := noise_matrix sg in
  (forall i j, (i < 2)%nat -> (j < 2)%nat -> moving K sg (diag2 (1/8) (1/16)) i j = 0) /\
  (exists V, ev_f_var K sg sg (diag2 (1/8) (1/16)) = Ok V /\ 0 < get V 0%nat 0%nat) /\
  (exists V, ev_f_var K sg sg (diag2 (1/2) (1/2)) = Ok V /\ forall i j, (i < 2)%nat -> (j < 2)%nat -> get V i j = 0) /\
  moving K sg (diag2 (1/2) (1/2)) 0%nat 0%nat < 0.
Proof.
  intros Hs HK K. subst K. unfold noise_matrix in HK. rewrite get_mk, sumn_2 in HK by auto.
  assert (GC : get (ev_C (T := R)) 0%nat 0%nat = 2 /\ get (ev_C (T := R)) 0%nat 1%nat = 0 /\ get (ev_C (T := R)) 1%nat 0%nat = 0 /\ get (ev_C (T := R)) 1%nat 1%nat = 4)
    by (repeat split; cbn; lra). destruct GC as (G0 & G1 & G2 & G3).
  assert (GD : forall a b, get (diag2 a b) 0%nat 0%nat = a /\ get (diag2 a b) 0%nat 1%nat = 0 /\ get (diag2 a b) 1%nat 0%nat = 0 /\ get (diag2 a b) 1%nat 1%nat = b) by (intros; repeat split).
  destruct (GD (1/8) (1/16)) as (D0 & D1 & D2 & D3), (GD (1/2) (1/2)) as (E0 & E1 & E2 & E3). split; [|split; [|split]].
  - intros i j Hi Hj. unfold moving, lyapunov, true_rate, noise_matrix. rewrite !sumn_2, !get_mk, !sumn_2 by auto.
    destruct i as [|[|]], j as [|[|]]; try lia; rewrite ?D0, ?D1, ?D2, ?D3, ?G0, ?G1, ?G2, ?G3; field.
  - destruct (f_var_form (noise_matrix sg) sg sg (diag2 (1/8) (1/16)) (sq_mk _) Hs Hs (sq_mk _)) as (V & HV & _ & G). exists V. split; [auto|].
    rewrite G by auto. unfold lyapunov, noise_matrix. rewrite !get_mk, !sumn_2 by auto. rewrite ?D0, ?D1, ?D2, ?D3. lra.
  - destruct (f_var_form (noise_matrix sg) sg sg (diag2 (1/2) (1/2)) (sq_mk _) Hs Hs (sq_mk _)) as (V & HV & _ & G). exists V. split; [auto|].
    intros i j Hi Hj. rewrite G by auto. unfold lyapunov, noise_matrix. rewrite !get_mk, !sumn_2 by auto.
    destruct i as [|[|]], j as [|[|]]; try lia; rewrite ?E0, ?E1, ?E2, ?E3; field.
  - unfold moving, lyapunov, true_rate, noise_matrix. rewrite !sumn_2, !get_mk, !sumn_2 by auto. rewrite ?E0, ?E1, ?E2, ?E3, ?G0, ?G1, ?G2, ?G3. lra.
Qed.

(** f_var0 adds sg0 sg^T, which is not a symmetric matrix when sg has off-diagonal entries and the diagonal of sg0 is not constant: already from
    the initial covariance 0 the "covariance" it produces is not symmetric *)
Theorem C76_misspecified_noise K sg0 sg V : square2 K -> square2 sg0 -> square2 sg -> ev_f_var K sg0 sg (mzeros 2 2) = Ok V ->
  get sg0 0%nat 1%nat = 0 -> get sg0 1%nat 0%nat = 0 -> get sg 0%nat 1%nat = get sg 1%nat 0%nat ->
  (get V 0%nat 1%nat = get V 1%nat 0%nat <-> get sg 0%nat 1%nat = 0 \/ get sg0 0%nat 0%nat = get sg0 1%nat 1%nat).
Proof.
  intros HK H0 Hs HV Z1 Z2 Hsym. destruct (f_var_form K sg0 sg (mzeros 2 2) HK H0 Hs (sq_mk _)) as (V' & HV' & _ & G). rewrite HV in HV'. injection HV' as <-.
  assert (Z : forall i j, (i < 2)%nat -> (j < 2)%nat -> get (mzeros (T := R) 2 2) i j = 0) by (intros; unfold mzeros, mconst; now rewrite get_mk by auto).
  rewrite !G by auto. unfold lyapunov. rewrite !Z, Z1, Z2, <- Hsym by auto. set (a := get sg 0%nat 1%nat). set (p := get sg0 0%nat 0%nat). set (q := get sg0 1%nat 1%nat).
  split.
  - intro H. destruct (Req_dec a 0); [auto|right]. assert (HH : a * (p - q) = 0) by lra. apply Rmult_integral in HH. lra.
  - intros [ -> | -> ]; ring.
Qed.

(** ** the control and the simulation *)
Lemma pin2_tot reps (B : arr3 R) k y : sh B 2 reps k -> (1 <= k)%nat -> List.length y = 2%nat -> exists B', pin 2 y 0 B = Ok B' /\ sh B' 2 reps k.
Proof.
  intros HB Hk Hy. pose (f := {| call1 := fun _ => Err TypeError; call2 := fun _ _ => Err TypeError |} : callable R).
  exact (pin_tot {| p_t1 := 0; p_t2 := 0; p_y1 := [0; 0]; p_y2 := []; p_f := f; p_g := mzeros 0 0; p_N := reps; p_M := 0;
    p_reweight := false; p_U := None; p_dens_est := "nonparametric"; p_reject := true; p_kern := "RBF"; p_f_true := None; p_brown := false; p_det := true |}
    B k y 0 HB Hk ltac:(cbn; lia) ltac:(auto)).
Qed.
Section Sim.
  Context {S : Type} (E : Ext R S).

  Section Control.
    Context (HI : inv_contract E).
    (** the outputs of the moment equations: one mean and one covariance per grid point *)
    Definition moments (n k : nat) (ms : list (list R)) (Cs : list (mat R)) : Prop :=
      List.length ms = k /\ List.length Cs = k /\ Forall (fun m => List.length m = n) ms /\ Forall (covariance n) Cs.

    (** u(x, ti) = sg sg^T (grad log q_{k-1-ti} - grad log p_ti) at every trajectory, p and q the Gaussians with the given moments (regularised) *)
    Theorem C76_control n c k sg ms Cs mbs Cbs x ti : mr sg = n -> mc sg = n -> moments n k ms Cs -> moments n k mbs Cbs -> mr x = n -> mc x = c -> (ti < k)%nat ->
      exists U Jp Jq gp gq, ev_u E sg ms Cs mbs Cbs x (Z.of_nat ti) = Ok U /\ mr U = n /\ mc U = c /\
        inverse_of n (regularised (nth ti Cs (mzeros 0 0))) Jp /\ inverse_of n (regularised (nth (k - 1 - ti) Cbs (mzeros 0 0))) Jq /\
        forall d r, (d < n)%nat -> (r < c)%nat ->
          gradient_at (log_gauss n Jp (fun i => nth i (nth ti ms []) 0)) (fun i => get x i r) d (gp d r) /\
          gradient_at (log_gauss n Jq (fun i => nth i (nth (k - 1 - ti) mbs []) 0)) (fun i => get x i r) d (gq d r) /\
          get U d r = sumn n (fun l => sumn n (fun m => get sg d m * get sg l m) * (gq l r - gp l r)).
    Proof.
      intros Rs Cg (L1 & L2 & F1 & F2) (L3 & L4 & F3 & F4) Rx Cx Ht. unfold ev_u.
      replace (Z.of_nat (List.length ms) - Z.of_nat ti - 1)%Z with (Z.of_nat (k - 1 - ti)) by lia.
      rewrite (pyget_nat mbs (k - 1 - ti) []), (pyget_nat Cbs (k - 1 - ti) (mzeros 0 0)), (pyget_nat ms ti []), (pyget_nat Cs ti (mzeros 0 0)) by lia. cbn [rbind].
      rewrite Forall_forall in F1, F2, F3, F4.
      assert (M1 := F1 (nth ti ms []) ltac:(apply nth_In; lia)). assert (M3 := F3 (nth (k - 1 - ti) mbs []) ltac:(apply nth_In; lia)).
      assert (M2 := F2 (nth ti Cs (mzeros 0 0)) ltac:(apply nth_In; lia)). assert (M4 := F4 (nth (k - 1 - ti) Cbs (mzeros 0 0)) ltac:(apply nth_In; lia)).
      destruct (C76_regularised_score E HI n c _ _ x M4 M3 Rx Cx) as (Gq & Jq & -> & R4 & C4 & I4 & D4). cbn [rbind].
      destruct (C76_regularised_score E HI n c _ _ x M2 M1 Rx Cx) as (Gp & Jp & -> & R2 & C2 & I2 & D2). cbn [rbind].
      rewrite (bc2_same nsub Gq Gp n c) by auto. cbn [rbind]. rewrite (mmul_R sg (mT sg) n n n) by (cbn; auto). cbn [rbind].
      rewrite (mmul_R _ _ n n c) by reflexivity. eexists _, Jp, Jq, (get Gp), (get Gq). split; [reflexivity|]. split; [reflexivity|]. split; [reflexivity|].
      split; [auto|]. split; [auto|]. intros d r Hd Hr. split; [auto|]. split; [auto|]. rewrite get_mk by auto. apply sumn_ext. intros l Hl. rewrite !get_mk by auto.
      f_equal. apply sumn_ext. intros m Hm. unfold mT. now rewrite get_mk by lia.
    Qed.
  End Control.

  Context (K C sg : mat R) (HK : square2 K) (HC : square2 C) (Hs : square2 sg) (reps k : nat).
  Definition rate2 (a b : nat) : R := -2 * sumn 2 (fun l => get K a l * get C l b).
  (** a control that answers for every ensemble of reps points and every index below n *)
  Definition answers (n : nat) (u : mat R -> Z -> res (mat R)) : Prop :=
    forall x t, mr x = 2%nat -> mc x = reps -> (t < n)%nat -> exists U, u x (Z.of_nat t) = Ok U /\ mr U = 2%nat /\ mc U = reps.

  Lemma ev_step_ok u i A s : answers (k - 1) u -> sh A 2 reps k -> (1 <= i < k)%nat ->
    exists m, ev_step E K C sg u reps i A s = (Ok (setslice A i m), snd (x_normal E s (sqrt (1/1000)) 2 reps)) /\ wf m /\ mr m = 2%nat /\ mc m = reps /\
      exists U, u (slice A (i - 1)) (Z.of_nat (i - 1)) = Ok U /\ forall d r, (d < 2)%nat -> (r < reps)%nat ->
        get m d r = get3 A d r (i - 1) + 1/1000 * sumn 2 (fun l => rate2 d l * get3 A l r (i - 1)) + 1/1000 * get U d r
          + sumn 2 (fun l => get sg d l * fst (x_normal E s (sqrt (1/1000)) 2 reps) l r).
  Proof.
    intros Hu HA Hi. pose proof HA as (WA & DA & NA & KA). destruct (sh_slice _ _ _ _ (i-1) HA ltac:(lia)) as (_ & RX & CX).
    unfold ev_step, bind, lift. replace (Z.of_nat i - 1)%Z with (Z.of_nat (i - 1)) by lia. rewrite getsl_nat by lia.
    unfold ev_f. rewrite mmul2 by auto using sq_smul. cbn [rbind]. rewrite (mmul_R _ (slice A (i-1)) 2 2 reps) by auto.
    rewrite (bc2_same nadd (slice A (i-1)) _ 2 reps) by auto.
    destruct (Hu (slice A (i-1)) (i-1)%nat RX CX ltac:(lia)) as (U & HU & RU & CU). rewrite HU. rewrite (bc2_same nadd _ _ 2 reps) by (cbn; auto).
    unfold normal. cbn [nsqrt nmilli nlit ROps]. change (IZR (Zpos 1) / IZR (Zpos 1000)) with (1 / 1000).
    destruct (x_normal E s (sqrt (1/1000)) 2 reps) as [h s'] eqn:Hn. cbn [fst snd].
    rewrite (mmul_R sg _ 2 2 reps) by (try reflexivity; apply Hs). cbn [rbind]. rewrite (bc2_same nadd _ _ 2 reps) by reflexivity. cbn [rbind].
    rewrite setsl_nat by (try apply wf_mk; cbn; lia). eexists. split; [reflexivity|]. split; [apply wf_mk|]. split; [reflexivity|]. split; [reflexivity|].
    exists U. split; [reflexivity|]. intros d r Hd Hr. rewrite !get_mk by auto. unfold smul. rewrite !get_mmap1 by (cbn; auto; lia). rewrite !get_mk by auto. rewrite !sumn_2. unfold rate2. rewrite !sumn_2.
    rewrite !get_mk by auto. destruct HK as (RK & CK). rewrite !get_mmap1 by lia. unfold get3. cbn [nadd nmul nopp ntwo nlit ROps]. field.
  Qed.

  Definition simulated_pair (u u0 : mat R -> Z -> res (mat R)) (y1 : list R) (n : nat) (s : S) (c : ev_state R) : Prop :=
    ((1 <= n)%nat -> all_at (ev_F c) 0 y1 /\ all_at (ev_F0 c) 0 y1) /\
    forall t, (1 <= t < n)%nat ->
      driven_step E rate2 (get sg) u0 reps (ev_F0 c) t (draws E reps (2 * t - 2) s) /\
      driven_step E rate2 (get sg) u reps (ev_F c) t (draws E reps (2 * t - 1) s).

  Lemma driven_keep u A i m t s' : sh A 2 reps k -> (1 <= t < i)%nat -> driven_step E rate2 (get sg) u reps A t s' -> driven_step E rate2 (get sg) u reps (setslice A i m) t s'.
  Proof. intros HA Ht (U & H1 & H2). exists U. unfold get3 in *. rewrite !slice_set_other by lia. auto. Qed.
  Lemma driven_new u A i m s' : sh A 2 reps k -> (1 <= i < k)%nat ->
    (exists U, u (slice A (i - 1)) (Z.of_nat (i - 1)) = Ok U /\ forall d r, (d < 2)%nat -> (r < reps)%nat ->
        get m d r = get3 A d r (i - 1) + 1/1000 * sumn 2 (fun l => rate2 d l * get3 A l r (i - 1)) + 1/1000 * get U d r
          + sumn 2 (fun l => get sg d l * fst (x_normal E s' (sqrt (1/1000)) 2 reps) l r)) ->
    driven_step E rate2 (get sg) u reps (setslice A i m) i s'.
  Proof.
    intros (W & _ & _ & KA) Hi (U & H1 & H2). exists U. unfold get3 in *. rewrite !(slice_set_other _ i _ (i-1)) by lia. rewrite slice_set_same by (auto; lia). auto.
  Qed.

  (** the ensemble F0 uses the true drift and noise and the control u0; F uses u; both start at y1; the noise of F0 is drawn first *)
  Theorem C76_simulation u u0 y1 grid s : answers (k - 1) u -> answers (k - 1) u0 -> List.length y1 = 2%nat -> List.length grid = k -> (1 <= k)%nat ->
    exists c, ev_simulation E K C sg u u0 y1 reps grid s = (Ok c, draws E reps (2 * (k - 1)) s) /\
      has_shape (ev_F c) 2 reps k /\ has_shape (ev_F0 c) 2 reps k /\ simulated_pair u u0 y1 k s c.
  Proof.
    intros Hu Hu0 Hy Hg Hk. unfold ev_simulation. rewrite (enumerate_map grid 0), Hg.
    destruct (mfold_seq_total (ev_body E K C sg u u0 y1 reps) (fun i => (i, nth i grid 0))
      (fun i c s' => sh (ev_F c) 2 reps k /\ sh (ev_F0 c) 2 reps k /\ simulated_pair u u0 y1 i s c /\ s' = draws E reps (2 * (i - 1)) s) k
      {| ev_F := zeros3 2 reps k; ev_F0 := zeros3 2 reps k |} s) as (c & s' & H & HF & HF0 & HP & ->).
    - split; [apply sh_zeros|]. split; [apply sh_zeros|]. split; [|reflexivity]. split; [lia|]. intros; lia.
    - intros i c s' Hi (HF & HF0 & (Hat & Hst) & ->). destruct (Nat.eq_dec i 0) as [ -> |Hi0].
      + unfold ev_body. cbn [Nat.eqb]. unfold lift. destruct (pin2_tot reps (ev_F c) k y1 HF ltac:(lia) Hy) as (A & HA & SA).
        destruct (pin2_tot reps (ev_F0 c) k y1 HF0 ltac:(lia) Hy) as (A0 & HA0 & SA0). rewrite HA. cbn [rbind]. rewrite HA0. cbn [rbind].
        eexists _, _. split; [reflexivity|]. cbn [ev_F ev_F0]. split; [auto|]. split; [auto|]. split; [|reflexivity].
        split; [|intros; lia]. intros _. cbn [ev_F ev_F0].
        assert (Q : forall B B', sh B 2 reps k -> pin 2 y1 0 B = Ok B' -> all_at B' 0 y1).
        { intros B B' HB HP. apply (pin_ok 2 reps k y1 0 B B' HB) in HP. destruct HP as ((_ & D & N & _) & _ & _ & G & _). intros d n Hd Hn. unfold get3. rewrite (G 0%nat) by (apply pyidx_0; lia).
          rewrite D in Hd. rewrite N in Hn. now rewrite get_mk by auto. }
        split; [exact (Q _ _ HF HA)|exact (Q _ _ HF0 HA0)].
      + unfold ev_body. destruct (Nat.eqb_spec i 0); [lia|]. unfold bind.
        destruct (ev_step_ok u0 i (ev_F0 c) (draws E reps (2 * (i - 1)) s) Hu0 HF0 ltac:(lia)) as (m0 & -> & W0 & R0 & C0 & Q0).
        change (snd (x_normal E (draws E reps (2 * (i - 1)) s) (sqrt (1 / 1000)) 2 reps)) with (draws E reps (Datatypes.S (2 * (i - 1))) s).
        destruct (ev_step_ok u i (ev_F c) (draws E reps (Datatypes.S (2 * (i - 1))) s) Hu HF ltac:(lia)) as (m & -> & W & R & C' & Q).
        eexists _, _. split; [reflexivity|]. cbn [ev_F ev_F0]. split; [apply sh_set; auto|]. split; [apply sh_set; auto|]. split.
        * split; cbn [ev_F ev_F0].
          { intros _. destruct (Hat ltac:(lia)) as (A1 & A2). split; intros d r Hd Hr; unfold get3; rewrite slice_set_other by lia; [apply A1|apply A2]; auto. }
          intros t Ht. destruct (Nat.eq_dec t i) as [ -> |Hti].
          { replace (2 * i - 2)%nat with (2 * (i - 1))%nat by lia. replace (2 * i - 1)%nat with (Datatypes.S (2 * (i - 1))) by lia. split; apply driven_new; auto; lia. }
          destruct (Hst t ltac:(lia)) as (T1 & T2). split; apply driven_keep; auto; lia.
        * change (snd (x_normal E (draws E reps (Datatypes.S (2 * (i - 1))) s) (sqrt (1 / 1000)) 2 reps)) with (draws E reps (Datatypes.S (Datatypes.S (2 * (i - 1)))) s).
          f_equal. lia.
    - exists c. split; [exact H|]. split; [now apply sh_has_shape|]. split; [now apply sh_has_shape|]. exact HP.
  Qed.

  (** with the Gaussian controls the simulation runs to the end *)
  Corollary C76_simulation_runs sg0 ms Cs mbs Cbs ms0 Cs0 mbs0 Cbs0 y1 grid s : inv_contract E -> square2 sg0 ->
    moments 2 k ms Cs -> moments 2 k mbs Cbs -> moments 2 k ms0 Cs0 -> moments 2 k mbs0 Cbs0 -> List.length y1 = 2%nat -> List.length grid = k -> (1 <= k)%nat ->
    exists c, ev_simulation E K C sg (ev_u E sg ms Cs mbs Cbs) (ev_u E sg0 ms0 Cs0 mbs0 Cbs0) y1 reps grid s = (Ok c, draws E reps (2 * (k - 1)) s) /\
      has_shape (ev_F c) 2 reps k /\ has_shape (ev_F0 c) 2 reps k /\
      simulated_pair (ev_u E sg ms Cs mbs Cbs) (ev_u E sg0 ms0 Cs0 mbs0 Cbs0) y1 k s c.
  Proof.
    intros HI (R0 & C0) M1 M2 M3 M4 Hy Hg Hk. destruct Hs as (Rs & Cs').
    apply C76_simulation; auto; intros x t Rx Cx Ht;
      [destruct (C76_control HI 2 reps k sg ms Cs mbs Cbs x t Rs Cs' M1 M2 Rx Cx ltac:(lia)) as (U & _ & _ & _ & _ & H & RU & CU & _)
      |destruct (C76_control HI 2 reps k sg0 ms0 Cs0 mbs0 Cbs0 x t R0 C0 M3 M4 Rx Cx ltac:(lia)) as (U & _ & _ & _ & _ & H & RU & CU & _)]; eauto.
  Qed.
End Sim.

(** ** a concrete case *)
From Verif Require Import Run.RealExt.
Definition sg_w : mat R := mk 2 2 (fun i j => if Nat.eqb i j then 1 else 1/2).
Definition C_w (t : nat) : mat R := mk 2 2 (fun i j => if Nat.eqb i j then INR t * 2 else INR t).
Lemma C_w_cov t : covariance 2 (C_w t).
Proof.
  split; [reflexivity|]. split; [reflexivity|]. split.
  - intros i j Hi Hj. unfold C_w. rewrite !get_mk by auto. rewrite Nat.eqb_sym. reflexivity.
  - intro v. unfold C_w, qf. rewrite ?sumn_2. rewrite !get_mk by auto. cbn [Nat.eqb]. pose proof (pos_INR t) as Ht.
    match goal with |- 0 <= ?e => replace e with (INR t * (v 0%nat ^ 2 + v 1%nat ^ 2 + (v 0%nat + v 1%nat) ^ 2)) by ring end.
    apply Rmult_le_pos; [exact Ht|]. nra.
Qed.
Definition ms_w : list (list R) := [[0; 0]; [0; 1/10]; [1/10; 1/5]].
Definition Cs_w : list (mat R) := [C_w 0; C_w 1; C_w 2].
Lemma moments_w : moments 2 3 ms_w Cs_w.
Proof. split; [reflexivity|]. split; [reflexivity|]. split; [do 3 (apply Forall_cons; [reflexivity|]); apply Forall_nil|do 3 (apply Forall_cons; [apply C_w_cov|]); apply Forall_nil]. Qed.
Example W76_simulation s : exists c, ev_simulation RealExt (noise_matrix sg_w) ev_C sg_w (ev_u RealExt sg_w ms_w Cs_w ms_w Cs_w)
    (ev_u RealExt (ev_diag sg_w) ms_w Cs_w ms_w Cs_w) [0; 0] 4 [0; 1/1000; 2/1000] s = (Ok c, draws RealExt 4 4 s)
  /\ simulated_pair RealExt (noise_matrix sg_w) ev_C sg_w 4 (ev_u RealExt sg_w ms_w Cs_w ms_w Cs_w) (ev_u RealExt (ev_diag sg_w) ms_w Cs_w ms_w Cs_w) [0; 0] 3 s c.
Proof.
  destruct contracts_consistent as (HI & _).
  destruct (C76_simulation_runs RealExt (noise_matrix sg_w) ev_C sg_w (sq_mk _) (sq_mk _) (sq_mk _) 4 3 (ev_diag sg_w) ms_w Cs_w ms_w Cs_w ms_w Cs_w ms_w Cs_w [0; 0] [0; 1/1000; 2/1000] s
    HI (sq_mk _) moments_w moments_w moments_w moments_w eq_refl eq_refl ltac:(lia)) as (c & H & _ & _ & P). exists c. split; [exact H|exact P].
Qed.
Example W76_equilibria : square2 sg_w /\ 0 < get (noise_matrix sg_w) 0%nat 0%nat.
Proof. split; [apply sq_mk|]. unfold noise_matrix, sg_w. rewrite get_mk, sumn_2, !get_mk by auto. cbn [Nat.eqb]. lra. Qed.
