(** Symbolic execution of the PICE script (C78, C79). *)
From Coq Require Import String List ZArith Reals Lia Lra Bool.
From Verif Require Import Base.Num Base.Py Base.Arr Lib.ArrLemmas Model.Ext Model.DPFC Model.Examples Model.Pice Spec.RealSpec Spec.Contracts Spec.FlowSpec Spec.ExampleSpec Spec.PiceSpec Spec.PiceContracts.
From Verif Require Import Lib.RBase Lib.RSum Lib.RMat Lib.Estimator Lib.FlowLemmas Lib.TotalLemmas Lib.Ginv Props.GaussScores Props.Phenotype.
Import ListNotations.
Local Open Scope R_scope.

Lemma bas_R l x y : (l < 16)%nat -> bas x y l = feature l x y.
Proof.
  intro Hl. unfold feature, exponents. do 16 (destruct l as [|l]; [cbn; unfold nsq; cbn; ring|]). lia.
Qed.

Lemma nth_map_seq' {B} (g : nat -> B) n i d : (i < n)%nat -> nth i (map g (seq 0 n)) d = g i.
Proof. intro H. rewrite (nth_indep _ d (g 0%nat)) by now rewrite map_length, seq_length. rewrite map_nth, seq_nth by auto. reflexivity. Qed.

Lemma basis_ok nb (z : mat R) : mr z = 2%nat -> (nb <= 16)%nat -> basis nb z = Ok (mk nb (mc z) (fun l n => feature l (get z 0 n) (get z 1 n))).
Proof.
  intros Hz Hn. unfold basis. rewrite Hz. destruct (Nat.ltb_spec 2 2); [lia|]. destruct (Nat.ltb_spec 16 nb); [lia|]. f_equal. apply mk_ext. intros. apply bas_R. lia.
Qed.
Lemma uf_ok nb k A z t : cf_shape nb k A -> mr z = 2%nat -> (nb <= 16)%nat -> (t < k)%nat ->
  uf_pice nb A z (Z.of_nat t) = Ok (mk 2 (mc z) (fun d n => policy nb (coef A) d t (get z 0 n) (get z 1 n))).
Proof.
  intros (LA & HA) Hz Hn Ht. unfold uf_pice.
  rewrite (rmapM_intro _ (fun di => map (fun n => policy nb (coef A) di t (get z 0 n) (get z 1 n)) (seq 0 (mc z)))).
  - cbn [rbind]. f_equal. apply mk_ext. intros d n Hd Hnn. rewrite nth_map_seq' by auto. now rewrite nth_map_seq' by auto.
  - intros d Hd. apply in_seq in Hd. destruct (HA d ltac:(lia)) as (L1 & L2). rewrite (pyget_nat A d []) by lia. cbn [rbind].
    rewrite (pyget_nat _ t []) by lia. cbn [rbind]. rewrite basis_ok by auto. cbn [rbind]. specialize (L2 t Ht).
    rewrite (mmul_R (vec _) _ 1 nb (mc z)) by (cbn; auto). cbn [rbind]. f_equal. unfold row. cbn [mc mk]. apply map_ext_in. intros n Hnn. apply in_seq in Hnn.
    rewrite get_mk by lia. unfold policy. apply sumn_ext. intros l Hl. unfold vec. rewrite L2, !get_mk by lia. reflexivity.
Qed.

Section Roll.
  Context {S : Type} (E : Ext R S).
  Context (f : mat R -> res (mat R)) (F : nat -> R -> R -> R) (HF : drift_map f F) (sig : R) (nb N k : nat) (Hnb : (nb <= 16)%nat).

  Definition rolled (n : nat) (A : coefs R) (s : S) (c0 c : roll R) : Prop :=
    (forall d i, (d < 2)%nat -> (i < N)%nat -> get3 (r_Z c) d i 0 = get3 (r_Z c0) d i 0) /\
    (forall t d i, (t < n)%nat -> (d < 2)%nat -> (i < N)%nat ->
      get3 (r_nos c) d i t = sig * noise E N s d i t /\
      get3 (r_us c) d i t = policy nb (coef A) d t (get3 (r_Z c) 0 i t) (get3 (r_Z c) 1 i t) /\
      get3 (r_Z c) d i (t + 1) = get3 (r_Z c) d i t + 1/1000 * F d (get3 (r_Z c) 0 i t) (get3 (r_Z c) 1 i t) + 1/1000 * sig * get3 (r_us c) d i t + sig * noise E N s d i t) /\
    (forall t, (n <= t)%nat -> slice (r_nos c) t = slice (r_nos c0) t /\ slice (r_us c) t = slice (r_us c0) t).

  Lemma roll_ok A (c0 : roll R) grid s : cf_shape nb k A -> List.length grid = k -> (1 <= k)%nat ->
    sh (r_nos c0) 2 N k -> sh (r_us c0) 2 N k -> sh (r_Z c0) 2 N k ->
    exists c, mfold (roll_body E f sig nb A N) (enumerate grid) c0 s = (Ok c, draws E N (k - 1) s) /\
      sh (r_nos c) 2 N k /\ sh (r_us c) 2 N k /\ sh (r_Z c) 2 N k /\ rolled (k - 1) A s c0 c.
  Proof using HF Hnb.
    intros HA Hg Hk S1 S2 S3. rewrite (enumerate_map grid 0), Hg.
    destruct (mfold_seq_total (roll_body E f sig nb A N) (fun i => (i, nth i grid 0))
      (fun i c s' => sh (r_nos c) 2 N k /\ sh (r_us c) 2 N k /\ sh (r_Z c) 2 N k /\ rolled (i - 1) A s c0 c /\ s' = draws E N (i - 1) s) k c0 s) as (c & s' & H & H1 & H2 & H3 & H4 & ->).
    - split; [auto|]. split; [auto|]. split; [auto|]. split; [|reflexivity]. split; [auto|]. split; [intros; lia|auto].
    - intros i c s' Hi (H1 & H2 & H3 & (R0 & R1 & R2) & ->). destruct (Nat.eq_dec i 0) as [ -> |Hi0].
      + exists c, s. split; [reflexivity|]. split; [auto|]. split; [auto|]. split; [auto|]. split; [|reflexivity]. split; [auto|]. split; [intros; lia|auto].
      + unfold roll_body. destruct (Nat.eqb_spec i 0); [lia|]. unfold bind, normal, lift. cbn [nsqrt dt nmilli nlit ROps]. change (IZR (Zpos 1) / IZR (Zpos 1000)) with (1 / 1000).
        set (sn := draws E N (i - 1) s) in *. destruct (x_normal E sn (sqrt (1/1000)) 2 N) as [W s2] eqn:Hn.
        replace (Z.of_nat i - 1)%Z with (Z.of_nat (i - 1)) by lia.
        pose proof H1 as (_ & D1 & N1 & K1). pose proof H2 as (_ & D2 & N2 & K2). pose proof H3 as (W3 & D3 & N3 & K3).
        rewrite setsl_nat by (try apply wf_mk; cbn; lia). rewrite getsl_nat by lia.
        destruct (sh_slice _ _ _ _ (i-1) H3 ltac:(lia)) as (Wz & Rz & Cz).
        rewrite (uf_ok nb k A _ (i-1) HA Rz Hnb ltac:(lia)). rewrite Cz. rewrite setsl_nat by (try apply wf_mk; cbn; lia).
        destruct (HF (slice (r_Z c) (i-1)) Rz) as (V & HV & RV & CV & GV). rewrite HV. rewrite Cz in CV, GV.
        rewrite (bc2_same nadd (slice (r_Z c) (i-1)) (smul _ V) 2 N) by (cbn; auto). cbn [rbind].
        rewrite getsl_nat by (cbn; lia). cbn [rbind]. rewrite slice_set_same by (try apply H2; lia).
        rewrite (bc2_same nadd _ _ 2 N) by (cbn; auto). cbn [rbind]. rewrite getsl_nat by (cbn; lia). cbn [rbind]. rewrite slice_set_same by (try apply H1; lia).
        rewrite (bc2_same nadd _ _ 2 N) by (cbn; auto). cbn [rbind]. rewrite setsl_nat by (try apply wf_mk; cbn; lia). cbn [rbind].
        eexists _, _. split; [reflexivity|]. cbn [r_nos r_us r_Z].
        split; [apply sh_set; auto; try lia; try apply wf_mk; reflexivity|]. split; [apply sh_set; auto; try lia; try apply wf_mk; reflexivity|]. split; [apply sh_set; auto; try lia; try apply wf_mk; reflexivity|]. split.
        * replace (Datatypes.S i - 1)%nat with i by lia. split; [|split]; cbn [r_nos r_us r_Z].
          -- intros d j Hd Hj. unfold get3. rewrite slice_set_other by lia. now apply R0.
          -- intros t d j Ht Hd Hj. unfold get3. destruct (Nat.eq_dec t (i-1)) as [ -> |Hti].
             ++ rewrite !slice_set_same by (try apply H1; try apply H2; lia). replace (i - 1 + 1)%nat with i by lia. rewrite slice_set_same by (auto; lia). rewrite !(slice_set_other (r_Z c) i _ (i-1)) by lia.
                assert (XW : noise E N s d j (i-1) = W d j) by (unfold noise; fold sn; now rewrite Hn).
                unfold smul. rewrite ?mmap1_mk, !get_mk by auto. rewrite get_mmap1 by lia. rewrite GV by auto. cbn [nmul nadd ROps]. rewrite XW. split; [reflexivity|]. split; [reflexivity|]. try ring.
             ++ rewrite !(slice_set_other _ (i-1) _ t) by lia. rewrite !(slice_set_other (r_Z c) i) by lia. apply R1; lia.
          -- intros t Ht. rewrite !slice_set_other by lia. apply R2. lia.
        * replace (Datatypes.S i - 1)%nat with (Datatypes.S (i - 1)) by lia. cbn [draws]. fold sn. now rewrite Hn.
    - exists c. auto.
  Qed.
End Roll.

Lemma nsum_flat2 (g : nat -> list R) : nsum (flat_map g (seq 0 2)) = nsum (g 0%nat) + nsum (g 1%nat).
Proof. cbn [seq flat_map]. rewrite app_nil_r. apply nsum_app. Qed.
Lemma sqrt_sq (x : R) : nsqrt (nsq x) = Rabs x.
Proof. cbn. unfold nsq. cbn. apply sqrt_Rsqr_abs. Qed.
Lemma phi_R (y2 alph : list R) x : phi y2 alph x = sumn 2 (fun e => listfn alph e * Rabs (x - listfn y2 e)).
Proof. unfold phi. rewrite nsum_seq. apply sumn_ext. intros e _. rewrite sqrt_sq. reflexivity. Qed.

Lemma getsl_last (A : arr3 R) d n k : sh A d n k -> (1 <= k)%nat -> getsl A (-1) = Ok (slice A (k - 1)).
Proof. intros (_ & _ & _ & K) Hk. unfold getsl. rewrite K, pyidx_m1 by lia. reflexivity. Qed.

(** the last slices of noise and control are zero throughout *)
Definition idle (k : nat) (c : roll R) : Prop := forall d n, get3 (r_nos c) d n (k - 1) = 0 /\ get3 (r_us c) d n (k - 1) = 0.

Lemma cost_ok (N k : nat) (y2 alph : list R) (c : roll R) sig (W : nat -> nat -> nat -> R) : (1 <= N)%nat -> (1 <= k)%nat -> sh (r_Z c) 2 N k -> idle k c ->
  (forall t d i, (t < k - 1)%nat -> (d < 2)%nat -> (i < N)%nat -> get3 (r_nos c) d i t = sig * W d i t) ->
  exists Su, path_cost y2 alph k c = Ok Su /\ List.length Su = N /\ forall n, (n < N)%nat ->
    nth n Su 0 = cost_of k (1/1000) sig (listfn alph) (listfn y2) (fun d t => get3 (r_us c) d n t) (fun d t => W d n t) (fun d => get3 (r_Z c) d n (k - 1)).
Proof.
  intros HN Hk HZ Hid HW. unfold path_cost. rewrite (getsl_last _ 2 N k HZ Hk). cbn [rbind].
  destruct (sh_slice _ _ _ _ (k-1) HZ ltac:(lia)) as (_ & Rz & Cz). unfold phi2. rewrite Rz, Cz. destruct (Nat.eqb_spec N 0); [lia|]. cbn [Nat.eqb orb rbind].
  eexists. split; [reflexivity|]. split; [now rewrite map_length, seq_length|]. intros n0 Hn. rewrite nth_map_seq' by auto.
  rewrite !nsum_flat2, !nsum_seq. unfold cost_of, end_cost. rewrite !sumn_2. cbn [nadd nsub nmul ROps].
  assert (XU : forall d, (d < 2)%nat -> sumn k (fun t => nhalf * nsq (get3 (r_us c) d n0 t) * dt) = sumn (k-1) (fun t => 1/2 * get3 (r_us c) d n0 t ^ 2 * (1/1000))).
  { intros d Hd. replace k with (Datatypes.S (k-1)) at 1 by lia. cbn [sumn]. destruct (Hid d n0) as (_ & Q). rewrite Q. unfold nhalf, nsq, dt, nmilli. cbn [nmul nlit ROps].
    rewrite (sumn_ext (k-1) _ (fun t => 1/2 * get3 (r_us c) d n0 t ^ 2 * (1/1000))); [lra|]. intros; cbn [pow]; ring. }
  assert (XN : forall d, (d < 2)%nat -> sumn k (fun t => get3 (r_us c) d n0 t * get3 (r_nos c) d n0 t) = sumn (k-1) (fun t => get3 (r_us c) d n0 t * (sig * W d n0 t))).
  { intros d Hd. replace k with (Datatypes.S (k-1)) at 1 by lia. cbn [sumn]. destruct (Hid d n0) as (_ & Q). rewrite Q.
    rewrite (sumn_ext (k-1) _ (fun t => get3 (r_us c) d n0 t * (sig * W d n0 t))); [ring|]. intros t Ht. now rewrite HW. }
  rewrite !XU, !XN by lia. rewrite !get_mmap1 by lia. cbn [nopp ROps]. rewrite !phi_R, !sumn_2. unfold get3. ring.
Qed.

Lemma weights_ok (N : nat) (Su : list R) C : List.length Su = N -> (forall n, (n < N)%nat -> nth n Su 0 = C n) -> softmin N C (listfn (cost_weights Su)).
Proof.
  intros L H n Hn. unfold listfn, cost_weights.
  set (w := map (fun v : R => nexp (nopp v)) Su).
  assert (G : forall i, (i < N)%nat -> nth i w 0 = exp (- C i)).
  { intros i Hi. unfold w. rewrite (nth_indep _ 0 (nexp (nopp 0))) by (rewrite map_length; lia). rewrite (map_nth (fun v : R => nexp (nopp v))). cbn. now rewrite H. }
  assert (Lw : List.length w = N) by (unfold w; now rewrite map_length).
  rewrite (nth_indep _ 0 (ndiv 0 (nsum w))) by (rewrite map_length; lia). rewrite (map_nth (fun v : R => ndiv v (nsum w))). cbn [ndiv ROps]. rewrite G by auto. f_equal.
  rewrite <- (sumn_ext N (listfn w)) by (intros; now apply G). rewrite <- nsum_seq, <- Lw. f_equal. clear. unfold listfn. induction w as [|a w IH]; [reflexivity|].
  cbn [List.length seq map]. f_equal. rewrite <- seq_shift, map_map. exact IH.
Qed.
Lemma softmin_pos N C w n : softmin N C w -> (n < N)%nat -> 0 < w n.
Proof. intros H Hn. rewrite H by auto. apply Rdiv_lt_0_compat; [apply exp_pos|]. apply sumn_gt0; [lia|]. intros; apply exp_pos. Qed.

Section Update.
  Context (pinv : mat R -> res (mat R)) (HP : pinv_contract pinv) (eta sig : R) (nb N k : nat) (Hnb : (nb <= 16)%nat).

  Lemma new_coefs_ok (wu : list R) (c : roll R) d t a : sh (r_Z c) 2 N k -> (t < k)%nat -> (forall n, (n < N)%nat -> 0 <= listfn wu n) -> List.length a = nb ->
    exists a', new_coefs pinv eta nb wu c d t a = Ok a' /\ List.length a' = nb /\
      best_fit nb N (listfn wu) (fun l n => feature l (get3 (r_Z c) 0 n t) (get3 (r_Z c) 1 n t)) (fun n => eta * get3 (r_nos c) d n t / (1/1000)) (fun l => nth l a' 0 - nth l a 0) /\
      ((forall n, (n < N)%nat -> get3 (r_nos c) d n t = 0) -> a' = a).
  Proof using HP Hnb.
    intros HZ Ht Hw La. unfold new_coefs. rewrite getsl_nat by (destruct HZ as (_ & _ & _ & ->); auto). cbn [rbind].
    destruct (sh_slice _ _ _ _ t HZ Ht) as (_ & Rz & Cz). rewrite basis_ok by auto. cbn [rbind]. rewrite Cz.
    set (ph := fun l n => feature l (get3 (r_Z c) 0 n t) (get3 (r_Z c) 1 n t)). set (w := listfn wu).
    rewrite (mk_ext nb nb _ (gramw N w ph)).
    2:{ intros i j Hi Hj. rewrite nsum_seq. unfold gramw. apply sumn_ext. intros n Hn. rewrite !get_mk by auto. reflexivity. }
    set (Hm := mk nb nb (gramw N w ph)). destruct (HP Hm) as (P & HPq & RP & CP & PS).
    { reflexivity. } { intros i j Hi Hj. cbn in Hi, Hj. unfold Hm. rewrite !get_mk by auto. apply gramw_sym. }
    cbn [mr Hm mk] in RP, CP, PS. rewrite HPq. cbn [rbind].
    set (dQ := mk 1 nb _). rewrite (mmul_R _ P 1 nb nb) by (cbn; auto). cbn [rbind].
    rewrite (bc2_same nadd (vec a) _ 1 nb) by (cbn; auto). cbn [rbind]. eexists. split; [reflexivity|].
    set (yv := fun n => eta * get3 (r_nos c) d n t / (1/1000)).
    assert (GD : forall l, (l < nb)%nat -> get (divs (smul eta dQ) dt) 0 l = momw N w ph yv l).
    { intros l Hl. unfold divs, smul. rewrite get_mmap1 by (cbn; lia). rewrite get_mmap1 by (cbn; lia). unfold dQ. rewrite get_mk by auto. rewrite nsum_seq. cbn [nmul ndiv ROps]. unfold momw, yv, dt, nmilli. cbn [nlit ROps].
      rewrite <- sumn_scal. unfold Rdiv. rewrite <- sumn_scal_r. apply sumn_ext. intros n Hn. rewrite get_mk by auto. unfold w, listfn, ph, get3. cbn [nzero ROps]. ring. }
    assert (GR : forall l, (l < nb)%nat -> nth l (row (mk 1 nb (fun i j => nadd (get (vec a) i j) (get (mk 1 nb (fun i0 j0 => sumn nb (fun l0 => get (divs (smul eta dQ) dt) i0 l0 * get P l0 j0))) i j))) 0) 0
                   = nth l a 0 + sumn nb (fun i => momw N w ph yv i * get P i l)).
    { intros l Hl. unfold row. cbn [mc mk]. rewrite nth_map_seq' by auto. rewrite !get_mk by auto. unfold vec. rewrite La, get_mk by auto. cbn [nadd nzero ROps]. f_equal. apply sumn_ext. intros i Hi. now rewrite GD. }
    split; [unfold row; now rewrite map_length, seq_length|]. split.
    - apply (pinv_best_fit nb N w ph yv (get P)).
      + exact Hw.
      + destruct PS as (P1 & P2). split; intros i j Hi Hj.
        * specialize (P1 i j Hi Hj). unfold Hm in P1. rewrite get_mk in P1 by auto. etransitivity; [|exact P1]. apply sumn_ext. intros p Hp. rewrite get_mk by auto. f_equal. apply sumn_ext. intros q Hq. now rewrite get_mk by auto.
        * specialize (P2 i j Hi Hj). unfold Hm in P2. rewrite (sumn_ext nb _ (fun p => get (mk nb nb (gramw N w ph)) i p * get P p j)) by (intros; now rewrite get_mk by auto). rewrite P2. apply sumn_ext. intros p Hp. now rewrite get_mk by auto.
      + intros j Hj. rewrite GR by auto. ring.
    - intro Z0. apply nth_ext with (d := 0) (d' := 0); [unfold row; rewrite map_length, seq_length; auto|]. intros l Hl. assert (Hl' : (l < nb)%nat) by (revert Hl; unfold row; now rewrite map_length, seq_length). rewrite GR by auto.
      rewrite (sumn_0 nb); [ring|]. intros i Hi. assert (momw N w ph yv i = 0) as ->; [|ring]. unfold momw. apply sumn_0. intros n Hn. unfold yv. rewrite Z0 by auto. unfold Rdiv. ring.
  Qed.

  Lemma update_ok (wu : list R) (c : roll R) A : sh (r_Z c) 2 N k -> (forall n, (n < N)%nat -> 0 <= listfn wu n) -> cf_shape nb k A -> (1 <= k)%nat -> idle k c ->
    exists A', update pinv eta nb wu c k A = Ok A' /\ cf_shape nb k A' /\
      forall d, (d < 2)%nat ->
        (forall t, (t < k)%nat -> best_fit nb N (listfn wu) (fun l n => feature l (get3 (r_Z c) 0 n t) (get3 (r_Z c) 1 n t)) (fun n => eta * get3 (r_nos c) d n t / (1/1000)) (fun l => coef A' d t l - coef A d t l)) /\
        forall l, coef A' d (k - 1) l = coef A d (k - 1) l.
  Proof using HP Hnb.
    intros HZ Hw (LA & HA) Hk Hid. unfold update.
    assert (INN : forall d, (d < 2)%nat -> exists r, rmapM (fun ti => let! a := pyget (nth d A []) (Z.of_nat ti) in new_coefs pinv eta nb wu c d ti a) (seq 0 k) = Ok r /\ List.length r = k).
    { intros d Hd. destruct (HA d Hd) as (L1 & L2). edestruct (rmapM_tot (fun ti => let! a := pyget (nth d A []) (Z.of_nat ti) in new_coefs pinv eta nb wu c d ti a) (seq 0 k)) as (r & Hr & Lr).
      - intros t Ht. apply in_seq in Ht. rewrite (pyget_nat _ t []) by lia. cbn [rbind]. destruct (new_coefs_ok wu c d t (nth t (nth d A []) []) HZ ltac:(lia) Hw (L2 t ltac:(lia))) as (a' & H & _). eauto.
      - exists r. split; [exact Hr|]. now rewrite Lr, seq_length. }
    destruct (rmapM_tot (fun di => let! ca := pyget A (Z.of_nat di) in rmapM (fun ti => let! a := pyget ca (Z.of_nat ti) in new_coefs pinv eta nb wu c di ti a) (seq 0 k)) (seq 0 2)) as (A' & HA' & LA').
    { intros d Hd. apply in_seq in Hd. rewrite (pyget_nat A d []) by lia. cbn [rbind]. destruct (INN d ltac:(lia)) as (r & Hr & _). eauto. }
    exists A'. split; [exact HA'|]. destruct (rmapM_seq_ok _ 2 A' [] HA') as (L2 & G).
    assert (EN : forall d t, (d < 2)%nat -> (t < k)%nat -> List.length (nth d A' []) = k /\ new_coefs pinv eta nb wu c d t (nth t (nth d A []) []) = Ok (nth t (nth d A' []) [])).
    { intros d t Hd Ht. specialize (G d Hd). rewrite (pyget_nat A d []) in G by lia. cbn [rbind] in G. destruct (rmapM_seq_ok _ k _ [] G) as (Lk & Gt). split; [exact Lk|]. specialize (Gt t Ht).
      destruct (HA d Hd) as (L1 & _). rewrite (pyget_nat _ t []) in Gt by lia. exact Gt. }
    split.
    - split; [exact L2|]. intros d Hd. destruct (EN d 0%nat Hd ltac:(lia)) as (Lk & _). split; [exact Lk|]. intros t Ht. destruct (EN d t Hd Ht) as (_ & Q). destruct (HA d Hd) as (_ & L3).
      destruct (new_coefs_ok wu c d t _ HZ Ht Hw (L3 t Ht)) as (a' & Q' & La & _). rewrite Q in Q'. injection Q' as ->. exact La.
    - intros d Hd. destruct (HA d Hd) as (_ & L3). split.
      + intros t Ht. destruct (EN d t Hd Ht) as (_ & Q). destruct (new_coefs_ok wu c d t _ HZ Ht Hw (L3 t Ht)) as (a' & Q' & _ & B & _). rewrite Q in Q'. injection Q' as <-. exact B.
      + intro l. unfold coef. destruct (EN d (k-1)%nat Hd ltac:(lia)) as (_ & Q). destruct (new_coefs_ok wu c d (k-1) _ HZ ltac:(lia) Hw (L3 (k-1)%nat ltac:(lia))) as (a' & Q' & _ & _ & B). rewrite Q in Q'. injection Q' as <-.
        rewrite B; [reflexivity|]. intros n Hn. apply Hid.
  Qed.
End Update.
