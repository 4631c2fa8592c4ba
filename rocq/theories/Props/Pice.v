(** C78: the PICE comparison: training and simulation. *)
From Coq Require Import String List ZArith Reals Lia Lra Bool.
From Verif Require Import Base.Num Base.Py Base.Arr Lib.ArrLemmas Model.Ext Model.DPFC Model.Examples Model.Pice Spec.RealSpec Spec.Contracts Spec.FlowSpec Spec.ExampleSpec Spec.PiceSpec Spec.PiceContracts.
From Verif Require Import Lib.RBase Lib.RSum Lib.RMat Lib.Estimator Lib.FlowLemmas Lib.TotalLemmas Lib.Ginv Props.GaussScores Props.Phenotype Lib.PiceLemmas.
Import ListNotations.
Local Open Scope R_scope.

(** ** the criterion of progress *)
Lemma nmean_R (l : list R) : nmean l = fold_right Rplus 0 l / INR (List.length l).
Proof. unfold nmean, nofnat. cbn. rewrite INR_IZR_INZ. f_equal. field. Qed.
Lemma telescope (g : nat -> R) m : sumn m (fun i => g (i + 1)%nat - g i) = g m - g 0%nat.
Proof. induction m; cbn [sumn]; [ring|]. rewrite IHm. replace (m + 1)%nat with (Datatypes.S m) by lia. ring. Qed.
Lemma nth_firstn_lt {A} (l : list A) n i d : (i < n)%nat -> nth i (firstn n l) d = nth i l d.
Proof. revert l i. induction n; intros l i H; [lia|]. destruct l; [reflexivity|]. destruct i; [reflexivity|]. cbn. apply IHn. lia. Qed.
Lemma nth_skipn' {A} (l : list A) n i d : nth i (skipn n l) d = nth (n + i) l d.
Proof. revert l. induction n; intro l; [reflexivity|]. destruct l; [now destruct i|]. cbn. apply IHn. Qed.
Lemma stuck_R (e : list R) i : List.length e = (i + 1)%nat -> (stuck e i = true <-> stalled (listfn e) i).
Proof.
  intro L. unfold stuck, stalled. rewrite andb_true_iff, Nat.ltb_lt, nltb_R. split; intros (Hi & H); split; auto.
  all: set (l := firstn 50 (skipn (i - 50) e)) in *; assert (Ll : List.length l = 50%nat) by (unfold l; rewrite firstn_length, skipn_length; lia);
       assert (Q : nmean (diff l) = (listfn e (i - 1) - listfn e (i - 50)) / 49).
  1,3: rewrite nmean_R; unfold diff; rewrite map_length, seq_length, Ll; change (50 - 1)%nat with 49%nat; change (fold_right Rplus 0) with (nsum (T := R)); rewrite nsum_seq;
       replace (INR 49) with 49 by (cbn; lra); f_equal; rewrite (telescope (fun j => nth j l nzero) 49); unfold l;
       rewrite !nth_firstn_lt, !nth_skipn' by lia; unfold listfn; replace (i - 50 + 49)%nat with (i - 1)%nat by lia; replace (i - 50 + 0)%nat with (i - 50)%nat by lia; reflexivity.
  - rewrite Q in H. cbn [nabs nmilli nlit ROps] in H. unfold Rdiv in H at 1. rewrite Rabs_mult, (Rabs_right (/ 49)) in H by lra. lra.
  - rewrite Q. cbn [nabs nmilli nlit ROps]. unfold Rdiv at 1. rewrite Rabs_mult, (Rabs_right (/ 49)) by lra. lra.
Qed.

Lemma adjust_R (e1 e2 : list R) i a0 a1 c1 c2 : List.length e1 = (i + 1)%nat -> List.length e2 = (i + 1)%nat ->
  exists a0' a1' c1' c2', adjust e1 e2 i [a0; a1] c1 c2 = ([a0'; a1'], c1', c2') /\ adapted (listfn e1) (listfn e2) i a0 a1 c1 c2 a0' a1' c1' c2'.
Proof.
  intros L1 L2. unfold adjust. pose proof (stuck_R e1 i L1) as Q1. pose proof (stuck_R e2 i L2) as Q2.
  assert (N1 : stuck e1 i && (c1 <=? 0)%Z = true <-> stalled (listfn e1) i /\ (c1 <= 0)%Z) by (rewrite andb_true_iff, Z.leb_le, Q1; tauto).
  assert (N2 : stuck e2 i && (c2 <=? 0)%Z = true <-> stalled (listfn e2) i /\ (c2 <= 0)%Z) by (rewrite andb_true_iff, Z.leb_le, Q2; tauto).
  destruct (stuck e1 i && (c1 <=? 0)%Z).
  - eexists _, _, _, _. split; [reflexivity|]. left. destruct (proj1 N1 eq_refl). split; [auto|]; split; [auto|]; repeat split; auto; unfold nlit; cbn; lra.
  - assert (~ (stalled (listfn e1) i /\ (c1 <= 0)%Z)) by (intro X; apply N1 in X; discriminate). destruct (stuck e2 i && (c2 <=? 0)%Z).
    + eexists _, _, _, _. split; [reflexivity|]. right; left. destruct (proj1 N2 eq_refl). split; [auto|]; split; [auto|]; split; [auto|]; repeat split; auto; unfold nlit; cbn; lra.
    + eexists _, _, _, _. split; [reflexivity|]. right; right. repeat split; auto. intro X; apply N2 in X; discriminate.
Qed.
Lemma adapted_ext (e1 e2 e1' e2' : nat -> R) i a0 a1 c1 c2 a0' a1' c1' c2' : (forall j, (j < i)%nat -> e1 j = e1' j) -> (forall j, (j < i)%nat -> e2 j = e2' j) ->
  adapted e1 e2 i a0 a1 c1 c2 a0' a1' c1' c2' -> adapted e1' e2' i a0 a1 c1 c2 a0' a1' c1' c2'.
Proof.
  intros H1 H2. assert (S1 : stalled e1 i <-> stalled e1' i).
  { unfold stalled. split; intros (Hi & H); split; auto; [rewrite <- !H1 by lia|rewrite !H1 by lia]; auto. }
  assert (S2 : stalled e2 i <-> stalled e2' i).
  { unfold stalled. split; intros (Hi & H); split; auto; [rewrite <- !H2 by lia|rewrite !H2 by lia]; auto. }
  unfold adapted. rewrite S1, S2. auto.
Qed.
Lemma mean_end_R (A : arr3 R) N k d : sh A 2 N k -> (1 <= N)%nat -> (1 <= k)%nat -> nmean (row (slice A (k - 1)) d) = mean_end N k (get3 A) d.
Proof.
  intros HA HN Hk. destruct (sh_slice _ _ _ _ (k-1) HA ltac:(lia)) as (_ & _ & C). rewrite nmean_R. unfold row. rewrite C, map_length, seq_length.
  change (fold_right Rplus 0) with (nsum (T := R)). rewrite nsum_seq. reflexivity.
Qed.
Lemma arrived_R (y2 : list R) N k (Z : nat -> nat -> nat -> R) : arrived y2 (mean_end N k Z 0) (mean_end N k Z 1) = true <-> close_end N k (listfn y2) Z.
Proof. unfold arrived, close_end. rewrite andb_true_iff, !nleb_R. cbn [nabs nsub nlit ROps]. tauto. Qed.

Section Train.
  Context {S : Type} (E : Ext R S) (pinv : mat R -> res (mat R)) (HP : pinv_contract pinv).
  Context (f : mat R -> res (mat R)) (F : nat -> R -> R -> R) (HF : drift_map f F) (sig eta : R) (nb N : nat) (Hnb : (nb <= 16)%nat) (HN : (1 <= N)%nat).
  Context (y1 y2 grid : list R) (Hy1 : List.length y1 = 2%nat) (Hk : (1 <= List.length grid)%nat).
  Local Notation k := (List.length grid).

  Lemma draws_add m1 m2 s : draws E N (m1 + m2) s = draws E N m2 (draws E N m1 s).
  Proof. induction m2; [now rewrite Nat.add_0_r|]. rewrite Nat.add_succ_r. cbn [draws]. now rewrite IHm2. Qed.

  Lemma rollout_ok A (c0 : roll R) s : cf_shape nb k A -> sh (r_nos c0) 2 N k -> sh (r_us c0) 2 N k -> sh (r_Z c0) 2 N k -> idle k c0 ->
    exists c, rollout E f sig nb A N y1 grid c0 s = (Ok c, draws E N (k - 1) s) /\ sh (r_nos c) 2 N k /\ sh (r_us c) 2 N k /\ sh (r_Z c) 2 N k /\ idle k c /\
      (forall t d i, (t < k - 1)%nat -> (d < 2)%nat -> (i < N)%nat -> get3 (r_nos c) d i t = sig * noise E N s d i t) /\
      driven nb N k (1/1000) sig F (coef A) (listfn y1) (get3 (r_Z c)) (get3 (r_us c)) (noise E N s).
  Proof using HF Hnb HN Hy1 Hk.
    intros HA S1 S2 S3 Hid. unfold rollout, bind, lift. destruct (pin2_tot N (r_Z c0) k y1 S3 Hk Hy1) as (B & HB & SB). rewrite HB.
    destruct (roll_ok E f F HF sig nb N k Hnb A {| r_nos := r_nos c0; r_us := r_us c0; r_Z := B |} grid s HA eq_refl Hk S1 S2 SB) as (c & Hc & T1 & T2 & T3 & R0 & R1 & R2).
    cbn [r_nos r_us r_Z] in *. exists c. split; [exact Hc|]. split; [auto|]. split; [auto|]. split; [auto|]. split; [|split].
    - intros d n. unfold get3. destruct (R2 (k-1)%nat ltac:(lia)) as ( -> & -> ). apply Hid.
    - intros t d i Ht Hd Hi. now apply R1.
    - intros d n Hd Hn. split.
      + rewrite R0 by auto. apply (pin_ok 2 N k y1 0 _ _ S3) in HB. destruct HB as (_ & _ & _ & G & _). unfold get3. rewrite (G 0%nat) by (apply pyidx_0; lia). now rewrite get_mk by auto.
      + intros t Ht. destruct (R1 t d n ltac:(lia) Hd Hn) as (_ & Q1 & Q2). split; [exact Q1|]. exact Q2.
  Qed.

  Local Notation W s := (fun i => noise E N (draws E N (i * (k - 1)) s)).
  (** i finished iterations *)
  Definition prefix (s : S) (i : nat) (A Z U : nat -> nat -> nat -> nat -> R) (w : nat -> nat -> R) (a0 a1 : nat -> R) (c1 c2 : nat -> BinInt.Z) : Prop :=
    (forall d t l, A 0%nat d t l = 0) /\ a0 0%nat = 1 /\ a1 0%nat = 1 /\ c1 0%nat = 0%Z /\ c2 0%nat = 0%Z /\
    (forall j, (j < i)%nat ->
       driven nb N k (1/1000) sig F (A j) (listfn y1) (Z j) (U j) (W s j) /\
       softmin N (fun n => cost_of k (1/1000) sig (fun e => if Nat.eqb e 0 then a0 j else a1 j) (listfn y2) (fun d t => U j d n t) (fun d t => W s j d n t) (fun d => Z j d n (k - 1)%nat)) (w j)) /\
    (forall j, (j < i)%nat ->
       ~ close_end N k (listfn y2) (Z j) /\
       adapted (fun j => mean_end N k (Z j) 0) (fun j => mean_end N k (Z j) 1) j (a0 j) (a1 j) (c1 j) (c2 j) (a0 (j + 1)%nat) (a1 (j + 1)%nat) (c1 (j + 1)%nat) (c2 (j + 1)%nat) /\
       forall d, (d < 2)%nat ->
         (forall t, (t + 1 < k)%nat ->
            best_fit nb N (w j) (fun l n => feature l (Z j 0%nat n t) (Z j 1%nat n t)) (fun n => eta * (sig * W s j d n t) / (1/1000)) (fun l => A (j + 1)%nat d t l - A j d t l)) /\
         forall l, A (j + 1)%nat d (k - 1)%nat l = A j d (k - 1)%nat l).
  Definition fupd {B} (g : nat -> B) (i : nat) (v : B) (j : nat) : B := if Nat.eqb j i then v else g j.
  Lemma fupd_same {B} (g : nat -> B) i v : fupd g i v i = v. Proof. unfold fupd. now rewrite Nat.eqb_refl. Qed.
  Lemma fupd_other {B} (g : nat -> B) i v j : j <> i -> fupd g i v j = g j. Proof. intro H. unfold fupd. now apply Nat.eqb_neq in H as ->. Qed.

  Lemma best_fit_ext w w' ph ph' y y' a a' : (forall n, (n < N)%nat -> w n = w' n) -> (forall l n, (n < N)%nat -> ph l n = ph' l n) -> (forall n, (n < N)%nat -> y n = y' n) -> (forall l, a l = a' l) ->
    best_fit nb N w ph y a -> best_fit nb N w' ph' y' a'.
  Proof.
    intros Hw Hp Hy Ha. assert (Q : forall b b', (forall l, b l = b' l) -> squared_error nb N w ph y b = squared_error nb N w' ph' y' b').
    { intros b b' Hb. unfold squared_error. apply sumn_ext. intros n Hn. rewrite Hw, Hy by auto. do 2 f_equal. f_equal. apply sumn_ext. intros l Hl. now rewrite Hb, Hp. }
    intros (H1 & H2). split.
    - intro b. rewrite <- (Q a a' Ha), <- (Q b b) by auto. apply H1.
    - intros b Hb. rewrite <- (sumn_ext nb (fun l => a l ^ 2)) by (intros; now rewrite Ha). apply H2. intro b2. rewrite (Q b b), (Q b2 b2) by auto. apply Hb.
  Qed.

  Lemma train_ok n : forall i (c : trained R) s A Z U w a0 a1 c1 c2, (1 <= n)%nat ->
    prefix s i A Z U w a0 a1 c1 c2 -> A i = coef (tr_A c) -> cf_shape nb k (tr_A c) ->
    sh (r_nos (tr_roll c)) 2 N k -> sh (r_us (tr_roll c)) 2 N k -> sh (r_Z (tr_roll c)) 2 N k -> idle k (tr_roll c) ->
    List.length (tr_e1 c) = i -> List.length (tr_e2 c) = i ->
    (forall j, (j < i)%nat -> listfn (tr_e1 c) j = mean_end N k (Z j) 0 /\ listfn (tr_e2 c) j = mean_end N k (Z j) 1) ->
    tr_alph c = [a0 i; a1 i] -> tr_jc1 c = c1 i -> tr_jc2 c = c2 i ->
    exists it c', train E pinv f sig eta nb N y1 y2 grid n i c (draws E N (i * (k - 1)) s) = (Ok (it, c'), draws E N ((it + 1) * (k - 1)) s) /\
      (i <= it < i + n)%nat /\ cf_shape nb k (tr_A c') /\
      exists A Z U w a0 a1 c1 c2, pice_history nb N k it (1/1000) sig eta F (listfn y1) (listfn y2) (W s) A Z U w a0 a1 c1 c2 /\ A it = coef (tr_A c') /\
        Z it = get3 (r_Z (tr_roll c')) /\ U it = get3 (r_us (tr_roll c')) /\ ((it + 1 < i + n)%nat -> close_end N k (listfn y2) (Z it)).
  Proof using HP HF Hnb HN Hy1 Hk.
    induction n as [|n IH]; intros i c s A Z U w a0 a1 c1 c2 Hn HX HA SA T1 T2 T3 Hid L1 L2 HE Hal Hc1 Hc2; [lia|]. cbn [train]. unfold bind at 1. set (si := draws E N (i * (k - 1)) s).
    destruct (rollout_ok (tr_A c) (tr_roll c) si SA T1 T2 T3 Hid) as (r & Hr & R1 & R2 & R3 & Rid & RN & RD). rewrite Hr.
    assert (Ssi : draws E N (k - 1) si = draws E N ((i + 1) * (k - 1)) s).
    { unfold si. rewrite <- draws_add. f_equal. lia. }
    rewrite Ssi. clear Ssi. unfold bind at 1. unfold lift.
    destruct (cost_ok N k y2 (tr_alph c) r sig (noise E N si) HN Hk R3 Rid RN) as (Su & HS & LS & GS). rewrite HS.
    pose proof (weights_ok N Su _ LS GS) as SM. set (wu := cost_weights Su) in *.
    unfold bind at 1. rewrite (getsl_last _ 2 N k R3 Hk). rewrite !(mean_end_R _ N k _ R3 HN Hk).
    set (e1 := mean_end N k (get3 (r_Z r)) 0). set (e2 := mean_end N k (get3 (r_Z r)) 1). rewrite Hal in SM |- *. cbn [nth] in SM |- *.
    destruct HX as (X1 & X2 & X3 & X4 & X5 & X6 & X7).
    set (Z' := fupd Z i (get3 (r_Z r))). set (U' := fupd U i (get3 (r_us r))). set (w' := fupd w i (listfn wu)).
    assert (SM' : softmin N (fun n => cost_of k (1/1000) sig (fun e => if Nat.eqb e 0 then a0 i else a1 i) (listfn y2) (fun d t => get3 (r_us r) d n t) (fun d t => noise E N si d n t) (fun d => get3 (r_Z r) d n (k - 1)%nat)) (listfn wu)).
    { intros m Hm. rewrite SM by auto. assert (CE : forall n0, cost_of k (1/1000) sig (listfn [a0 i; a1 i]) (listfn y2) (fun d t => get3 (r_us r) d n0 t) (fun d t => noise E N si d n0 t) (fun d => get3 (r_Z r) d n0 (k - 1)%nat)
         = cost_of k (1/1000) sig (fun e => if Nat.eqb e 0 then a0 i else a1 i) (listfn y2) (fun d t => get3 (r_us r) d n0 t) (fun d t => noise E N si d n0 t) (fun d => get3 (r_Z r) d n0 (k - 1)%nat)).
      { intro n0. unfold cost_of, end_cost. rewrite !sumn_2. reflexivity. }
      rewrite CE. reflexivity. }
    assert (D' : forall j, (j <= i)%nat -> driven nb N k (1/1000) sig F (A j) (listfn y1) (Z' j) (U' j) (W s j) /\
       softmin N (fun n => cost_of k (1/1000) sig (fun e => if Nat.eqb e 0 then a0 j else a1 j) (listfn y2) (fun d t => U' j d n t) (fun d t => W s j d n t) (fun d => Z' j d n (k - 1)%nat)) (w' j)).
    { intros j Hj. destruct (Nat.eq_dec j i) as [ -> |Hji].
      - unfold Z', U', w'. rewrite !fupd_same. split; [rewrite HA; exact RD|exact SM'].
      - unfold Z', U', w'. rewrite !fupd_other by auto. apply X6. lia. }
    assert (EJ : forall j, (j < i)%nat -> Z' j = Z j) by (intros j Hj; unfold Z'; apply fupd_other; lia).
    assert (P' : forall j, (j < i)%nat -> ~ close_end N k (listfn y2) (Z' j) /\
       adapted (fun j => mean_end N k (Z' j) 0) (fun j => mean_end N k (Z' j) 1) j (a0 j) (a1 j) (c1 j) (c2 j) (a0 (j + 1)%nat) (a1 (j + 1)%nat) (c1 (j + 1)%nat) (c2 (j + 1)%nat) /\
       forall d, (d < 2)%nat ->
         (forall t, (t + 1 < k)%nat ->
            best_fit nb N (w' j) (fun l n => feature l (Z' j 0%nat n t) (Z' j 1%nat n t)) (fun n => eta * (sig * W s j d n t) / (1/1000)) (fun l => A (j + 1)%nat d t l - A j d t l)) /\
         forall l, A (j + 1)%nat d (k - 1)%nat l = A j d (k - 1)%nat l).
    { intros j Hj. destruct (X7 j Hj) as (Q1 & Q2 & Q3). rewrite EJ by auto. split; [exact Q1|]. split.
      - eapply adapted_ext; [| |exact Q2]; intros j' Hj'; cbv beta; rewrite EJ by lia; reflexivity.
      - unfold w'. rewrite fupd_other by lia. exact Q3. }
    assert (HIST : pice_history nb N k i (1/1000) sig eta F (listfn y1) (listfn y2) (W s) A Z' U' w' a0 a1 c1 c2).
    { split; [auto|]. split; [auto|]. split; [auto|]. split; [auto|]. split; [auto|]. split; [exact D'|exact P']. }
    destruct (arrived y2 e1 e2) eqn:Q.
    - exists i. eexists. split; [reflexivity|]. split; [lia|]. cbn [tr_A tr_roll]. split; [exact SA|]. exists A, Z', U', w', a0, a1, c1, c2. split; [exact HIST|]. split; [exact HA|].
      split; [apply fupd_same|]. split; [apply fupd_same|]. intros _. unfold Z'. rewrite fupd_same. now apply arrived_R.
    - destruct (adjust_R (tr_e1 c ++ [e1])%list (tr_e2 c ++ [e2])%list i (a0 i) (a1 i) (tr_jc1 c) (tr_jc2 c)) as (b0 & b1 & b2 & b3 & HAd & AD); [rewrite app_length; cbn; lia|rewrite app_length; cbn; lia|]. rewrite HAd.
      destruct (update_ok pinv HP eta nb N k Hnb wu r (tr_A c) R3) as (A' & HU & SA' & BF); auto.
      { intros m Hm. apply Rlt_le. exact (softmin_pos _ _ _ _ SM' Hm). }
      unfold bind at 1. rewrite HU. destruct n as [|n'].
      + exists i. eexists. split; [reflexivity|]. split; [lia|]. cbn [tr_A tr_roll]. split; [exact SA|]. exists A, Z', U', w', a0, a1, c1, c2. split; [exact HIST|]. split; [exact HA|].
        split; [apply fupd_same|]. split; [apply fupd_same|]. intro; lia.
      + set (c' := {| tr_A := A'; tr_roll := r; tr_e1 := _; tr_e2 := _; tr_alph := _; tr_jc1 := _; tr_jc2 := _ |}).
        assert (GE : forall j, (j <= i)%nat -> listfn (tr_e1 c ++ [e1])%list j = mean_end N k (Z' j) 0 /\ listfn (tr_e2 c ++ [e2])%list j = mean_end N k (Z' j) 1).
        { intros j Hj. unfold listfn. destruct (Nat.eq_dec j i) as [ -> |Hji].
          - rewrite !app_nth2 by lia. rewrite L1, L2, Nat.sub_diag. cbn [nth]. unfold Z'. rewrite fupd_same. auto.
          - rewrite !app_nth1 by lia. rewrite EJ by lia. apply HE. lia. }
        destruct (IH (i + 1)%nat c' s (fupd A (i + 1) (coef A')) Z' U' w' (fupd a0 (i + 1) b0) (fupd a1 (i + 1) b1) (fupd c1 (i + 1) b2) (fupd c2 (i + 1) b3)) as (it & c'' & HT & Hit & SH & HH); auto; try lia.
        * assert (LE : forall {B} (g : nat -> B) v j, (j <= i)%nat -> fupd g (i + 1) v j = g j) by (intros; apply fupd_other; lia).
          split; [intros; rewrite LE by lia; auto|]. split; [rewrite LE by lia; auto|]. split; [rewrite LE by lia; auto|]. split; [rewrite LE by lia; auto|]. split; [rewrite LE by lia; auto|]. split.
          -- intros j Hj. rewrite !LE by lia. apply D'. lia.
          -- intros j Hj. destruct (Nat.eq_dec j i) as [ -> |Hji].
             ++ rewrite !fupd_same, !LE by lia. split; [unfold Z'; rewrite fupd_same; intro X; apply arrived_R in X; fold e1 e2 in X; congruence|]. split.
                ** rewrite Hc1, Hc2 in AD. eapply adapted_ext; [| |exact AD]; intros j' Hj'; apply GE; lia.
                ** intros d Hd. destruct (BF d Hd) as (B1 & B2). split; [|intro l; rewrite HA; apply B2]. intros t Ht. rewrite HA. unfold w', Z'. rewrite !fupd_same.
                   eapply best_fit_ext; [| | | |exact (B1 t ltac:(lia))]; cbv beta; auto. intros m Hm. rewrite RN by (auto; lia). reflexivity.
             ++ rewrite !LE by lia. apply P'. lia.
        * apply fupd_same.
        * unfold c'. cbn [tr_e1]. rewrite app_length. cbn. lia.
        * unfold c'. cbn [tr_e2]. rewrite app_length. cbn. lia.
        * intros j Hj. apply GE. lia.
        * unfold c'. cbn [tr_alph]. now rewrite !fupd_same.
        * unfold c'. cbn [tr_jc1]. now rewrite fupd_same.
        * unfold c'. cbn [tr_jc2]. now rewrite fupd_same.
        * exists it, c''. split; [exact HT|]. split; [lia|]. split; [exact SH|]. destruct HH as (A2 & Z2 & U2 & w2 & q0 & q1 & q2 & q3 & HH1 & HH2 & HH3 & HH4 & HH5). exists A2, Z2, U2, w2, q0, q1, q2, q3.
          split; [exact HH1|]. split; [exact HH2|]. split; [exact HH3|]. split; [exact HH4|]. intro Hlt. apply HH5. lia.
  Qed.
End Train.

(** ** the training as a whole *)
Lemma untrained_coef nb k d t l : coef (repeat (repeat (repeat 0 nb) k) 2) d t l = 0.
Proof.
  assert (R0 : forall m i, nth i (repeat 0 m) 0 = 0) by (induction m; intros [|i]; cbn; auto).
  assert (R1 : forall m j i, nth i (nth j (repeat (repeat 0 nb) m) []) 0 = 0).
  { induction m; intros [|j] i; cbn; auto; destruct i; auto. }
  unfold coef. assert (R2 : forall m, nth l (nth t (nth d (repeat (repeat (repeat 0 nb) k) m) []) []) 0 = 0); [|apply R2].
  intro m. revert d. induction m; intros [|d]; cbn [repeat nth]; auto; destruct t, l; reflexivity.
Qed.
Lemma nth_repeat_lt {A} (a d : A) m i : (i < m)%nat -> nth i (repeat a m) d = a.
Proof. revert i. induction m; intros [|i] H; cbn; auto; try lia. apply IHm. lia. Qed.

Lemma get3_zeros d0 n0 k d n t : get3 (zeros3 (T := R) d0 n0 k) d n t = 0.
Proof.
  unfold get3. rewrite slice_zeros. destruct (Nat.lt_ge_cases d d0); [destruct (Nat.lt_ge_cases n n0)|]; [unfold mzeros, mconst; now rewrite get_mk by auto| |]; unfold get, mzeros, mconst, mk; cbn [md].
  - rewrite nth_map_seq' by auto. apply nth_overflow. now rewrite map_length, seq_length.
  - rewrite (nth_overflow (map _ _)) by now rewrite map_length, seq_length. now destruct n.
Qed.

(** PICE training runs to the end without an error and is a PICE history: see pice_history.  It consumes (it+1)(k-1) ensembles of noise, it the
    number returned, ends after at most max_iter-1 simulations, and if it ends earlier the mean end point is within 0.01 of the target. *)
Theorem C78_training {S : Type} (E : Ext R S) pinv f F sig eta nb N y1 y2 grid max_iter s :
  pinv_contract pinv -> drift_map f F -> (nb <= 16)%nat -> (1 <= N)%nat -> List.length y1 = 2%nat -> (1 <= List.length grid)%nat -> (2 <= max_iter)%nat ->
  let k := List.length grid in
  exists it c A Z U w a0 a1 c1 c2,
    pice E pinv f sig eta nb N y1 y2 grid max_iter s = (Ok (it, c), draws E N ((it + 1) * (k - 1)) s) /\
    (it + 2 <= max_iter)%nat /\
    pice_history nb N k it (1/1000) sig eta F (listfn y1) (listfn y2) (fun i => noise E N (draws E N (i * (k - 1)) s)) A Z U w a0 a1 c1 c2 /\
    (forall d t l, coef (tr_A c) d t l = A it d t l) /\
    (forall d t, (d < 2)%nat -> (t < k)%nat -> List.length (nth t (nth d (tr_A c) []) []) = nb) /\
    ((it + 2 < max_iter)%nat -> close_end N k (listfn y2) (Z it)).
Proof.
  intros HP HF Hnb HN Hy1 Hk Hm k. unfold pice.
  destruct (train_ok E pinv HP f F HF sig eta nb N Hnb HN y1 y2 grid Hy1 Hk (max_iter - 1) 0 (untrained nb N k) s (fun _ => coef (repeat (repeat (repeat 0 nb) k) 2)) (fun _ _ _ _ => 0) (fun _ _ _ _ => 0) (fun _ _ => 0)
    (fun _ => 1) (fun _ => 1) (fun _ => 0%Z) (fun _ => 0%Z)) as (it & c & HT & Hit & SA & A & Z & U & w & a0 & a1 & c1 & c2 & HH & HA & _ & _ & HC); auto; try lia.
  - split; [intros; apply untrained_coef|]. repeat split; auto; intros; lia.
  - split; [reflexivity|]. intros d Hd. cbn [untrained tr_A]. rewrite nth_repeat_lt by auto. split; [apply repeat_length|]. intros t Ht. rewrite nth_repeat_lt by auto. apply repeat_length.
  - apply sh_zeros.
  - apply sh_zeros.
  - apply sh_zeros.
  - intros d n. cbn [untrained tr_roll r_nos r_us]. split; apply get3_zeros.
  - exists it, c, A, Z, U, w, a0, a1, c1, c2. split; [exact HT|]. split; [lia|]. split; [exact HH|]. split; [intros; now rewrite HA|]. split.
    + intros d t Hd Ht. destruct SA as (_ & SA). now apply SA.
    + intro. apply HC. lia.
Qed.
