(** C77: the class and the controlled simulation of the cell-differentiation figure (Model/CellFate.v), over exact reals, in the plane. *)
From Coq Require Import String List ZArith Reals Lia Lra Bool Sorted.
From Verif Require Import Base.Num Base.Py Base.Arr Lib.ArrLemmas Model.Ext Model.Score Model.DPFC Model.LimitCycle Model.Examples Model.CellFate Lib.ScoreLemmas Lib.FlowLemmas Lib.StepLemmas Lib.RunLemmas Lib.TotalLemmas Lib.QueryLemmas.
From Verif Require Import Spec.RealSpec Spec.Contracts Spec.FlowSpec Spec.TotalSpec Spec.QuerySpec Spec.CellFateSpec Lib.RSum Lib.AnyScale Lib.CellFateLemmas Lib.RBase Lib.Gauss Lib.Estimator Props.Grid Props.Queries Props.QueriesR Props.Kernels Props.Estimators Props.ScoresR Props.LimitCycle Props.Flows.
From Verif Require Import Spec.KernelSpec Spec.RangeSpec Spec.ReweightSpec Spec.ScoreSpec.
Import ListNotations.
Local Open Scope string_scope.
Local Open Scope nat_scope.

(** ** deleting columns *)
Section Delete.
  Context {T : Type} {O : NumOps T}.
  Local Notation mat := (mat T). Local Notation arr3 := (arr3 T).
  Definition sel (A : arr3) (l : list nat) : arr3 :=
    Arr3 (a_d A) (List.length l) (a_k A) (map (fun m => mk (mr m) (List.length l) (fun i j => get m i (nth j l 0))) (a_s A)).
  Lemma delete1_sel A l1 e l2 : delete1 (sel A (l1 ++ e :: l2)) (List.length l1) = sel A (l1 ++ l2).
  Proof.
    unfold delete1, sel. cbn [a_d a_n a_k a_s]. rewrite !app_length. cbn [List.length]. f_equal; [lia|]. rewrite map_map. apply map_ext. intro m. cbn [mr mc mk].
    replace (List.length l1 + Datatypes.S (List.length l2) - 1) with (List.length l1 + List.length l2) by lia. apply mk_ext. intros i j Hi Hj.
    rewrite get_mk by (try destruct (Nat.ltb_spec j (List.length l1)); lia). f_equal. destruct (Nat.ltb_spec j (List.length l1)).
    - now rewrite !app_nth1 by lia.
    - rewrite !app_nth2 by lia. replace (j + 1 - List.length l1) with (Datatypes.S (j - List.length l1)) by lia. reflexivity.
  Qed.
  Lemma delete_all A (bad : nat -> bool) m rest :
    fold_left delete1 (rev (filter bad (seq 0 m))) (sel A (seq 0 m ++ rest)) = sel A (filter (fun n => negb (bad n)) (seq 0 m) ++ rest).
  Proof.
    revert rest. induction m as [|m IH]; intro rest; [reflexivity|]. rewrite seq_S, !filter_app. cbn [filter plus].
    destruct (bad m); cbn [negb].
    - rewrite rev_app_distr. cbn [rev app fold_left]. rewrite <- app_assoc. cbn [app]. pose proof (delete1_sel A (seq 0 m) m rest) as Q. rewrite seq_length in Q. rewrite Q.
      rewrite app_nil_r. apply IH.
    - rewrite app_nil_r, <- !app_assoc. cbn [app]. apply IH.
  Qed.
  Lemma sel_all (A : arr3) d n k : sh A d n k -> sel A (seq 0 n) = A.
  Proof.
    intros (W & D & N & K). destruct A as [d0 n0 k0 l]. cbn in D, N, K. subst. unfold sel. cbn [a_d a_k a_s]. rewrite seq_length. f_equal.
    rewrite <- (map_id l) at 2. apply map_ext_in. intros m Hm. destruct W as (L & F). cbn in L, F. destruct (In_nth l m (mzeros d n) Hm) as (t & Ht & Hn).
    destruct (F t ltac:(lia)) as (W & R & C). unfold slice in *. cbn in W, R, C. rewrite Hn in *. transitivity (mk (mr m) (mc m) (get m)); [|symmetry; exact W]. rewrite C. apply mk_ext. intros i j Hi Hj. now rewrite seq_nth by auto.
  Qed.
  Lemma sel_slice (A : arr3) l t : t < List.length (a_s A) -> slice (sel A l) t = mk (mr (slice A t)) (List.length l) (fun i j => get (slice A t) i (nth j l 0)).
  Proof.
    intro Ht. unfold slice. cbn [sel a_s a_d a_n].
    rewrite (nth_indep _ _ ((fun m => mk (mr m) (List.length l) (fun i j => get m i (nth j l 0))) (mzeros (a_d A) (a_n A)))) by (rewrite map_length; auto).
    rewrite (map_nth (fun m => mk (mr m) (List.length l) (fun i j => get m i (nth j l 0)))). reflexivity.
  Qed.
  Lemma sel_sh (A : arr3) d n k l : sh A d n k -> sh (sel A l) d (List.length l) k.
  Proof.
    intros ((L & F) & <- & <- & <-). split; [|auto]. split; cbn [sel a_s a_k]; [now rewrite map_length|]. intros t Ht. rewrite sel_slice by lia. destruct (F t Ht) as (_ & R & _).
    split; [apply wf_mk|]. cbn. auto.
  Qed.
End Delete.
Lemma filter_sorted (f : nat -> bool) a n : StronglySorted lt (filter f (seq a n)).
Proof.
  revert a. induction n as [|n IH]; intro a; [constructor|]. cbn [seq filter]. destruct (f a); [|apply IH]. constructor; [apply IH|].
  apply Forall_forall. intros x Hx. apply filter_In in Hx. destruct Hx as (Hx & _). apply in_seq in Hx. lia.
Qed.

(** ** the object *)
Section Object.
  Context {S : Type} (E : Ext R S).
  Local Notation mat := (mat R). Local Notation arr3 := (arr3 R).

  (** the parameters the class does not read *)
  Definition std (p : params R) : params R := {| p_t1 := p_t1 p; p_t2 := p_t2 p; p_y1 := p_y1 p; p_y2 := p_y2 p; p_f := p_f p; p_g := p_g p; p_N := p_N p; p_M := p_M p;
    p_reweight := p_reweight p; p_U := p_U p; p_dens_est := p_dens_est p; p_reject := p_reject p; p_kern := p_kern p; p_f_true := p_f_true p; p_brown := true; p_det := true |}.
  Lemma nforward_std p grid Z : nforward E p grid Z = nforward E (std p) grid Z. Proof. reflexivity. Qed.
  Lemma nbackward_std p grid Z B : nbackward E p grid Z B = nbackward E (std p) grid Z B. Proof. reflexivity. Qed.

  Lemma nbounds_ok p fp fm : planar p -> nbounds p = Ok (fp, fm) -> exists F, call2 (p_f p) (vec (p_y1 p)) (p_t1 p) = Ok F /\
    pyget fp 0 = Ok (nth 0 (p_y1 p) 0 + get F 0 0 * (1/1000) + 4 * amplitude p ^ 2 * sqrt (1/1000))%R /\
    pyget fm 0 = Ok (nth 0 (p_y1 p) 0 + get F 0 0 * (1/1000) - 4 * amplitude p ^ 2 * sqrt (1/1000))%R.
  Proof.
    intros (Hy & _ & _ & _ & Rg & Cg) H. unfold nbounds in H. apply rbind_ok in H. destruct H as (F & HF & H). exists F. split; [exact HF|].
    apply rbind_ok in H. destruct H as (a & Ha & H). apply rbind_ok in H. destruct H as (fp' & Hp & H). apply rbind_ok in H. destruct H as (fm' & Hm & H).
    apply rbind_ok in H. destruct H as ([] & H1 & H). destruct (Nat.eqb_spec (mr fp') 1) as [R1|]; [clear H1|discriminate].
    set (w := muls (smul (nlit 4 1) (msq (p_g p))) (nsqrt dt)) in *.
    assert (Rw : mr w = 1 /\ mc w = 1) by (cbn; auto). destruct Rw as (Rw & Cw).
    assert (Gw : get w 0 0 = (4 * amplitude p ^ 2 * sqrt (1/1000))%R).
    { unfold w, muls, smul, msq. rewrite !get_mmap1 by (cbn; lia). unfold amplitude, dt. cbn [nmul nsqrt nmilli nlit ROps nsq]. unfold nsq. cbn [nmul ROps]. field. }
    assert (Sh : forall op (A B C : mat), bc2 op A B = Ok C -> mr C = bdim (mr A) (mr B) /\ mc C = bdim (mc A) (mc B) /\ bok (mr A) (mr B) = true /\ bok (mc A) (mc B) = true /\
       forall i j, i < mr C -> j < mc C -> get C i j = op (bget A i j) (bget B i j)).
    { intros op A B C HC. unfold bc2 in HC. destruct (bok (mr A) (mr B)) eqn:B1, (bok (mc A) (mc B)) eqn:B2; cbn [andb] in HC; try discriminate.
      injection HC as <-. repeat split; auto. intros i j Hi Hj. cbn in Hi, Hj. now rewrite get_mk by auto. }
    destruct (Sh _ _ _ _ Ha) as (A1 & A2 & A3 & A4 & GA). destruct (Sh _ _ _ _ Hp) as (P1 & P2 & P3 & P4 & GP). destruct (Sh _ _ _ _ Hm) as (M1 & M2 & M3 & M4 & GM).
    change (mr (vec (p_y1 p))) with 1 in *. change (mc (vec (p_y1 p))) with (List.length (p_y1 p)) in *. rewrite Hy in *. rewrite Rw, Cw in *.
    apply bok_spec in A4. assert (CA : mc a = 2). { rewrite A2. unfold bdim. reflexivity. }
    rewrite CA in *. assert (CP : mc fp' = 2) by (rewrite P2; reflexivity). assert (CM : mc fm' = 2) by (rewrite M2; reflexivity).
    assert (RA : mr a = 1). { rewrite P1 in R1. unfold bdim in R1. destruct (Nat.eqb_spec (mr a) 1); lia. }
    assert (RM : mr fm' = 1). { rewrite M1, RA. reflexivity. }
    assert (B00 : forall A : mat, bget A 0 0 = get A 0 0). { intro A. unfold bget, bidx. destruct (mr A =? 1), (mc A =? 1); reflexivity. }
    assert (G0 : get fp' 0 0 = (nth 0 (p_y1 p) 0 + get F 0 0 * (1/1000) + 4 * amplitude p ^ 2 * sqrt (1/1000))%R /\ get fm' 0 0 = (nth 0 (p_y1 p) 0 + get F 0 0 * (1/1000) - 4 * amplitude p ^ 2 * sqrt (1/1000))%R).
    { rewrite GP, GM, !B00, Gw, GA, !B00 by lia. unfold vec. rewrite get_mk by lia. unfold muls. 
      assert (F0 : get (mmap1 (fun x => nmul x dt) F) 0 0 = (get F 0 0 * (1/1000))%R).
      { destruct (Nat.eq_dec (mr F) 0) as [Z0|N0]; [exfalso; unfold bdim in A1; cbn in A1; rewrite RA in A1; cbn in A1; lia|].
        assert (mc F <> 0). { destruct A4 as [ A4 | [ A4 | A4 ] ]; cbn in A4; lia. }
        rewrite get_mmap1 by lia. reflexivity. }
      rewrite F0. split; reflexivity. }
    destruct G0 as (G1 & G2).
    assert (X1 : row fp' 0 = [get fp' 0 0; get fp' 0 1]) by (unfold row; rewrite CP; reflexivity).
    assert (X2 : row fm' 0 = [get fm' 0 0; get fm' 0 1]) by (unfold row; rewrite CM; reflexivity).
    assert (W0 : (0 <= 4 * amplitude p ^ 2 * sqrt (1/1000))%R).
    { apply Rmult_le_pos; [|apply sqrt_pos]. apply Rmult_le_pos; [lra|apply pow2_ge_0]. }
    assert (L0 : nltb (get fp' 0 0) (get fm' 0 0) = false).
    { apply Bool.not_true_is_false. intro X. apply nltb_R in X. lra. }
    rewrite X1, X2 in H. cbn [seq rfold fst snd] in H.
    change (Z.of_nat 0) with 0%Z in H. change (Z.of_nat 1) with 1%Z in H.
    change (pyget [get fp' 0 0; get fp' 0 1] 0) with (Ok (get fp' 0 0)) in H. change (pyget [get fm' 0 0; get fm' 0 1] 0) with (Ok (get fm' 0 0)) in H. cbn [rbind] in H. rewrite L0 in H. cbn [rbind fst snd] in H. change (pyget [get fp' 0 0; get fp' 0 1] 1) with (Ok (get fp' 0 1)) in H. change (pyget [get fm' 0 0; get fm' 0 1] 1) with (Ok (get fm' 0 1)) in H. cbn [rbind] in H. rewrite <- G1, <- G2. destruct (nltb (get fp' 0 1) (get fm' 0 1)) in H; injection H as <- <-; split; reflexivity.
  Qed.

  Lemma nreject_ok p (B B' : arr3) k : planar p -> sh B 2 (p_N p) k -> nreject p B = Ok B' ->
    2 <= k /\ exists F kept, call2 (p_f p) (vec (p_y1 p)) (p_t1 p) = Ok F /\ B' = sel B kept /\
      (if p_reject p then within_cone B (nth 0 (p_y1 p) 0 + get F 0 0 * (1/1000))%R (4 * amplitude p ^ 2 * sqrt (1/1000))%R kept else kept = seq 0 (p_N p)).
  Proof.
    intros HP HB H. unfold nreject in H. apply rbind_ok in H. destruct H as ([fp fm] & HF & H). destruct (nbounds_ok p fp fm HP HF) as (F & HcF & Hp & Hm).
    apply rbind_ok in H. destruct H as (b & Hb & H). rewrite Hp, Hm in H. cbn [rbind] in H.
    apply getsl_ok in Hb. destruct Hb as (j & Hj & -> & Hlt). assert (K : a_k B = k) by apply HB. rewrite K in Hj, Hlt.
    assert (j = 1 /\ 2 <= k). { destruct (Nat.eq_dec k 0) as [->|N0]; [lia|]. destruct (Nat.eq_dec k 1) as [->|N1]; [discriminate|]. unfold pyidx in Hj. cbn in Hj.
      destruct (1 <? Z.of_nat k)%Z eqn:Q; [|apply Z.ltb_ge in Q; lia]. injection Hj as <-. split; [reflexivity|lia]. }
    destruct H0 as (-> & K2). split; [exact K2|]. exists F.
    destruct (sh_slice _ _ _ _ 1 HB ltac:(lia)) as (W1 & R1 & C1). rewrite R1 in H. cbn [Nat.ltb Nat.leb rbind] in H. rewrite C1 in H.
    destruct (p_reject p).
    - injection H as <-. set (c := (nth 0 (p_y1 p) 0 + get F 0 0 * (1/1000))%R) in *. set (w := (4 * amplitude p ^ 2 * sqrt (1/1000))%R) in *.
      set (inside := fun n => nltb (get (slice B 1) 0 n) (c + w)%R && nltb (c - w)%R (get (slice B 1) 0 n)).
      exists (filter (fun n => negb (negb (inside n) || negb (inside n))) (seq 0 (p_N p))). split; [exact HcF|]. split.
      + transitivity (fold_left delete1 (rev (filter (fun n => negb (inside n) || negb (inside n)) (seq 0 (p_N p)))) (sel B (seq 0 (p_N p) ++ []))).
        { rewrite app_nil_r, (sel_all B 2 (p_N p) k HB). reflexivity. }
        rewrite delete_all, app_nil_r. reflexivity.
      + split; [apply filter_sorted|]. intro n. rewrite filter_In, in_seq. assert (N : a_n B = p_N p) by apply HB. rewrite N.
        assert (Hin : negb (negb (inside n) || negb (inside n)) = true <-> (Rabs (get3 B 0 n 1 - c) < w)%R).
        { rewrite orb_diag, negb_involutive. unfold inside. rewrite andb_true_iff, !nltb_R. unfold get3. split.
          - intros (X1 & X2). apply Rabs_def1; lra.
          - intro X. apply Rabs_def2 in X. lra. }
        rewrite Hin. split; intros (X1 & X2); (split; [lia|exact X2]).
    - injection H as <-. exists (seq 0 (p_N p)). split; [exact HcF|]. split; [|reflexivity]. now rewrite (sel_all B 2 (p_N p) k HB).
  Qed.

  Lemma sel_trajectories (B : arr3) n k l : sh B 2 n k -> (forall m, In m l -> m < n) -> trajectories B l (sel B l).
  Proof.
    intros HB Hl. pose proof (sel_sh B 2 n k l HB) as HS. assert (D : a_d B = 2) by apply HB. assert (K : a_k B = k) by apply HB. split.
    - rewrite D, K. now apply sh_has_shape.
    - intros d m t Hd Hm Ht. unfold get3. assert (L : List.length (a_s B) = k). { destruct HB as ((L & _) & _ & _ & <-). exact L. }
      rewrite sel_slice by lia. destruct (sh_slice _ _ _ _ t HB ltac:(lia)) as (_ & R & _). rewrite get_mk by lia. reflexivity.
  Qed.

  Theorem C77_object p s o s' : planar p -> nconstruct E p s = (Ok o, s') ->
    o_par o = p /\ o_grid o = timegrid (p_t1 p) (p_t2 p) /\ 2 <= List.length (o_grid o) /\
    exists s1, fate_forward E p (o_grid o) (o_Z o) s s1 /\
    exists B F kept, fate_backward E p (o_grid o) (o_Z o) B s1 s' /\
      call2 (p_f p) (vec (p_y1 p)) (p_t1 p) = Ok F /\
      (p_reject p = false -> kept = seq 0 (p_N p)) /\
      (p_reject p = true -> within_cone B (nth 0 (p_y1 p) 0 + get F 0 0 * (1/1000))%R (4 * amplitude p ^ 2 * sqrt (1/1000))%R kept) /\
      trajectories B kept (o_B o).
  Proof.
    intros HP H. pose proof HP as (Hy1 & Hy2 & Hk & Hr & _). unfold nconstruct in H. rewrite Hy1 in H. set (grid := timegrid (p_t1 p) (p_t2 p)) in *. set (k := List.length grid) in *.
    apply bind_ok in H. destruct H as (Zf & s1 & HZ & H). apply bind_ok in H. destruct H as (B & s2 & HB & H). apply bind_ok in H. destruct H as (B' & s3 & HR & H).
    apply lift_ok in HR. destruct HR as (HR & ->). apply ret_ok in H. destruct H as (-> & ->). cbn [o_par o_grid o_Z o_B].
    split; [reflexivity|]. split; [reflexivity|].
    rewrite nforward_std, (nforward_same E (std p) Hy1 Hk Hr eq_refl) in HZ.
    assert (Hk0 : 0 < k).
    { destruct (Nat.eq_dec k 0) as [K0|]; [|lia]. exfalso. unfold k in *. destruct grid as [|t0 l]; [|cbn in K0; lia]. cbn in HZ. unfold ret in HZ. injection HZ as <- <-.
      pose proof (sh_zeros (T:=R) 2 (p_N p) 0) as SZ0. rewrite nbackward_std, (nbackward_same E (std p) Hy1 Hk eq_refl []) in HB by exact SZ0. pose proof (bw_run E (std p) "RBF" [] (delay (zeros3 2 (p_N p) 0)) s B s2) as O. change (p_y1 (std p)) with (p_y1 p) in O. change (p_N (std p)) with (p_N p) in O. rewrite Hy1 in O. cbv zeta in O.
      destruct (O (delay_sh p Hy1 _ _ _ _ SZ0) HB) as (_ & _ & Q & _). specialize (Q ltac:(lia)). cbn in Q. lia. }
    pose proof (otto_run E (std p) "RBF" grid s Zf s1) as O. change (p_y1 (std p)) with (p_y1 p) in O. change (p_N (std p)) with (p_N p) in O. rewrite Hy1 in O. cbv zeta in O.
    destruct (O HZ Hk0) as (SZ & _ & Z0 & sg & G0 & G1 & ST). clear O.
    rewrite nbackward_std, (nbackward_same E (std p) Hy1 Hk eq_refl) in HB by exact SZ.
    pose proof (bw_run E (std p) "RBF" grid (delay Zf) s1 B s2) as O. change (p_y1 (std p)) with (p_y1 p) in O. change (p_N (std p)) with (p_N p) in O. rewrite Hy1 in O. cbv zeta in O.
    destruct (O (delay_sh p Hy1 _ _ _ _ SZ) HB) as (SB & B0 & _ & BK & sb & GB0 & GB1 & SBk). clear O. fold k in SB, B0, BK, GB0, SBk, SZ.
    destruct (nreject_ok p B B' k HP SB HR) as (K2 & F & kept & HF & -> & HKp). split; [exact K2|].
    exists s1. split.
    - split; [now apply sh_has_shape|]. split.
      + apply (all_at_mk _ 2 (p_N p) k _ _ SZ). rewrite Z0. fold k. replace (k =? 1) with false by (symmetry; apply Nat.eqb_neq; lia). reflexivity.
      + exists sg. split; [exact G0|]. split; [exact G1|]. intros i Hi. specialize (ST i Hi). unfold otto_step in ST. change (p_reweight (std p)) with (p_reweight p) in ST. rewrite Hr in ST. exact ST.
    - exists B, F, kept. split; [|split; [exact HF|split; [|split]]].
      + split; [now apply sh_has_shape|]. split; [apply (all_at_mk _ 2 (p_N p) k _ _ SB); apply B0; lia|]. split; [apply (all_at_mk _ 2 (p_N p) k _ _ SB); apply BK; lia|].
        exists sb. split; [exact GB0|]. split; [exact GB1|]. intros j J1 J2. fold k in J2. specialize (SBk j J1 J2). cbn [p_det std negb] in SBk. rewrite orb_false_r in SBk.
        assert (KZ : a_k Zf = k) by apply SZ. rewrite delay_slice in SBk by lia. replace (j + 1 - 1) with j in SBk by lia. exact SBk.
      + intro Q. rewrite Q in HKp. exact HKp.
      + intro Q. rewrite Q in HKp. exact HKp.
      + apply (sel_trajectories B (p_N p) k); auto. intros m Hm. destruct (p_reject p).
        * apply HKp in Hm. destruct Hm as (Hm & _). assert (N : a_n B = p_N p) by apply SB. lia.
        * subst kept. apply in_seq in Hm. lia.
  Qed.
End Object.

(** ** it runs *)
Section Runs.
  Context {S : Type} (E : Ext R S) (HI : inv_contract E).
  Local Notation mat := (mat R). Local Notation arr3 := (arr3 R).

  Lemma nbounds_tot p F : planar p -> call2 (p_f p) (vec (p_y1 p)) (p_t1 p) = Ok F -> mr F = 1 -> mc F = 2 -> exists fp fm, nbounds p = Ok (fp, fm).
  Proof.
    intros (Hy & _ & _ & _ & Rg & Cg) HF R1 C1. unfold nbounds. rewrite HF. cbn [rbind].
    rewrite (bc2_same nadd (vec (p_y1 p)) (muls F dt) 1 2) by (cbn; auto). cbn [rbind]. set (a := mk 1 2 _). set (w := muls _ _).
    assert (Q : forall op, exists c, bc2 op a w = Ok c /\ mr c = 1 /\ mc c = 2).
    { intro op. unfold bc2. change (mr a) with 1. change (mc a) with 2. assert (mr w = 1) as -> by exact Rg. assert (mc w = 1) as -> by exact Cg. cbn. eexists. split; [reflexivity|]. auto. }
    destruct (Q nadd) as (fp & -> & R2 & C2). destruct (Q nsub) as (fm & -> & R3 & C3). cbn [rbind]. rewrite R2. cbn [Nat.eqb rbind].
    assert (X1 : row fp 0 = [get fp 0 0; get fp 0 1]) by (unfold row; rewrite C2; reflexivity).
    assert (X2 : row fm 0 = [get fm 0 0; get fm 0 1]) by (unfold row; rewrite C3; reflexivity). rewrite X1, X2.
    cbn [seq rfold fst snd]. change (pyget [get fp 0 0; get fp 0 1] (Z.of_nat 0)) with (Ok (get fp 0 0)). change (pyget [get fm 0 0; get fm 0 1] (Z.of_nat 0)) with (Ok (get fm 0 0)).
    cbn [rbind]. destruct (nltb (get fp 0 0) (get fm 0 0)); cbn [rbind fst snd upd].
    all: cbn; change (Pos.to_nat 1) with 1; cbn [nth_error rbind]; match goal with |- context [Rlt_dec ?a ?b] => destruct (Rlt_dec a b) end; cbn [rbind]; eauto.
  Qed.

  Theorem C77_runs p s F : planar p -> well_posed p -> no_overflow E -> (p_t1 p + 1/2000 < p_t2 p)%R ->
    call2 (p_f p) (vec (p_y1 p)) (p_t1 p) = Ok F -> mr F = 1 -> mc F = 2 ->
    exists o s', nconstruct E p s = (Ok o, s').
  Proof.
    intros HP WP HO Ht HF R1 C1. pose proof HP as (Hy1 & Hy2 & Hk & Hr & _).
    assert (K2 : 2 <= List.length (timegrid (p_t1 p) (p_t2 p))).
    { rewrite length_grid. destruct (npts_find (p_t1 p) (p_t2 p) ltac:(lra)) as (n & Hn). rewrite (npts_spec _ _ n Hn). destruct n; [cbn in Hn; lra|lia]. }
    assert (WP' : well_posed (std p)).
    { destruct WP. constructor; auto. cbn. rewrite Hr. discriminate. }
    assert (HPl : plots_ok (T := R) (List.length (p_y1 (std p)))) by (right; reflexivity).
    unfold nconstruct. rewrite Hy1. set (grid := timegrid (p_t1 p) (p_t2 p)) in *. unfold bind.
    destruct (otto_tot E (std p) WP' HO HPl (scores_ok_R E HI _) grid ltac:(lia) s) as (Zf & s1 & HZ & SZ). change (p_y1 (std p)) with (p_y1 p) in HZ, SZ. change (p_N (std p)) with (p_N p) in HZ, SZ. rewrite Hy1 in HZ, SZ.
    rewrite nforward_std. change (p_N p) with (p_N (std p)) at 1. rewrite (nforward_same E (std p) Hy1 Hk Hr eq_refl). change (p_N (std p)) with (p_N p). rewrite HZ.
    destruct (bw_tot E (std p) WP' HO HPl (scores_ok_R E HI _) grid (delay Zf) ltac:(lia)) with (s := s1) as (B & s2 & HB & SB).
    { change (p_y1 (std p)) with (p_y1 p). rewrite Hy1. exact (delay_sh p Hy1 _ _ _ _ SZ). }
    change (p_y1 (std p)) with (p_y1 p) in HB, SB. change (p_N (std p)) with (p_N p) in HB, SB. rewrite Hy1 in HB, SB.
    rewrite nbackward_std. change (p_N p) with (p_N (std p)) at 1. rewrite (nbackward_same E (std p) Hy1 Hk eq_refl) by exact SZ. change (p_N (std p)) with (p_N p). rewrite HB.
    destruct (nbounds_tot p F HP HF R1 C1) as (fp & fm & HN). destruct (nbounds_ok p fp fm HP HN) as (F' & _ & G1 & G2).
    unfold lift, nreject. rewrite HN. cbn [rbind]. assert (KB : a_k B = List.length grid) by apply SB. change 1%Z with (Z.of_nat 1). rewrite getsl_nat by lia. cbn [rbind]. rewrite G1, G2. cbn [rbind].
    destruct (sh_slice _ _ _ _ 1 SB ltac:(lia)) as (_ & RB & _). rewrite RB. cbn [Nat.ltb Nat.leb rbind]. destruct (p_reject p); unfold ret; eauto.
  Qed.

  (** the forward flow is that of the package, for the same generator *)
  Theorem C77_same_forward p s o s' o2 s2 : planar p -> p_brown p = true -> p_det p = true -> nconstruct E p s = (Ok o, s') -> construct E p s = (Ok o2, s2) -> o_Z o = o_Z o2 /\ o_grid o = o_grid o2.
  Proof.
    intros (Hy1 & Hy2 & Hk & Hr & _) Hb Hd H H2. unfold nconstruct in H. rewrite Hy1 in H. apply bind_ok in H. destruct H as (Zf & s1 & HZ & H).
    rewrite (nforward_same E p Hy1 Hk Hr Hb) in HZ. apply bind_ok in H. destruct H as (B & sb & _ & H). apply bind_ok in H. destruct H as (B' & sc & _ & H). apply ret_ok in H. destruct H as (-> & _). cbn [o_Z o_grid].
    unfold construct in H2. rewrite Hd, Hr, Hy1, Hk in H2. cbn [andb] in H2. change (kern_used "RBF") with "RBF" in H2. unfold bind in H2. rewrite HZ in H2. cbn [ret] in H2. unfold ret in H2.
    cbn [fst snd] in H2. destruct (backward_simulation E p "RBF" (timegrid (p_t1 p) (p_t2 p)) Zf (zeros3 2 (p_N p) (List.length (timegrid (p_t1 p) (p_t2 p)))) s1) as [[B2|e] s3]; [|discriminate]. injection H2 as <- _. auto.
  Qed.

  (** with reject=True and no noise, every trajectory is discarded *)
  Theorem C77_zero_noise p s o s' : planar p -> nconstruct E p s = (Ok o, s') -> p_reject p = true -> amplitude p = 0%R -> a_n (o_B o) = 0.
  Proof.
    intros HP H Hr Hg. destruct (C77_object E p s o s' HP H) as (_ & _ & _ & s1 & _ & B & F & kept & _ & _ & _ & HK & HT). destruct (HK Hr) as (_ & HK').
    destruct HT as ((_ & N & _) & _). rewrite N. destruct kept as [|n l]; [reflexivity|]. exfalso. destruct (proj1 (HK' n) (or_introl eq_refl)) as (_ & X). rewrite Hg in X.
    match type of X with (Rabs ?e < _)%R => pose proof (Rabs_pos e) end. replace (4 * 0 ^ 2 * sqrt (1/1000))%R with 0%R in X by ring. lra.
  Qed.
  (** and when no trajectory is left, no control can be computed *)
  Theorem C77_all_rejected o N k gx ti s : List.length (p_y1 (o_par o)) = 2 -> has_shape (o_Z o) 2 N k -> has_shape (o_B o) 2 0 k -> (0 <= ti < Z.of_nat k)%Z -> 1 <= N ->
    ncalculate_u E o gx ti s = (Err ValueError, s).
  Proof.
    intros Hy HZ HB Ht HN. apply has_shape_sh in HZ, HB. unfold ncalculate_u. rewrite Hy. replace ti with (Z.of_nat (Z.to_nat ti)) by lia. set (t := Z.to_nat ti).
    assert (t < k) by (unfold t; lia). assert (KZ : a_k (o_Z o) = k) by apply HZ. assert (KB : a_k (o_B o) = k) by apply HB.
    unfold bind, lift. rewrite getsl_nat by lia. rewrite getsl_nat by lia.
    destruct (sh_slice _ _ _ _ t HZ ltac:(lia)) as (_ & RZ & CZ). destruct (sh_slice _ _ _ _ t HB ltac:(lia)) as (_ & RB & CB).
    unfold inter_bnds. cbn [seq rmapM]. unfold inter_bnd at 1. unfold row at 2. rewrite CB. cbn [seq map].
    assert (exists v, lmin (row (slice (o_Z o) t) 0) = Ok v) as (v & ->). { unfold row. rewrite CZ. destruct N; [lia|]. cbn. eauto. }
    reflexivity.
  Qed.

  (** a path constraint cannot be used: its first reweighting refers to an undefined name *)
  Theorem C77_reweight p s o s' : p_reweight p = true -> 2 <= List.length (timegrid (p_t1 p) (p_t2 p)) -> nconstruct E p s <> (Ok o, s').
  Proof.
    intros Hr Hk H. unfold nconstruct in H. apply bind_ok in H. destruct H as (Z1 & s1 & H & _). unfold nforward in H. destruct (timegrid (p_t1 p) (p_t2 p)) as [|t0 [|t1 l]]; try (cbn in Hk; lia).
    unfold enumerate in H. cbn [List.length seq combine mfold] in H. apply bind_ok in H. destruct H as (Z2 & s2 & _ & H). apply bind_ok in H. destruct H as (Z3 & s3 & H & _).
    unfold notto_body in H. apply bind_ok in H. destruct H as (Z4 & s4 & _ & H). rewrite Hr in H. cbn [andb Nat.ltb Nat.leb] in H. apply lift_ok in H. destruct H as (H & _).
    apply rbind_ok in H. destruct H as (x & _ & H). apply rbind_ok in H. destruct H as (u & _ & H). apply rbind_ok in H. destruct H as (w & _ & H). discriminate.
  Qed.

  (** ** the control *)
  Definition nu_row (b z Sx : mat) (gx : mat) (d : nat) : res mat :=
    let! fb := score_function_multid_seperate2_fun E (mT b) Sx nmilli "RBF" (LVec (two_std b)) (Z.of_nat d + 1) in
    let! sb := fb (mT gx) in
    let! fz := score_function_multid_seperate2_fun E (mT z) Sx nmilli "RBF" (LVec (two_std b)) (Z.of_nat d + 1) in
    let! sz := fz (mT gx) in bc2 nsub (vec sb) (vec sz).
  Lemma ncalculate_u_eq o N N' k gx t s : List.length (p_y1 (o_par o)) = 2 -> o_kern o = "RBF" -> sh (o_Z o) 2 N k -> sh (o_B o) 2 N' k -> t < k ->
    ncalculate_u E o gx (Z.of_nat t) s =
    match inter_bnds 2 (slice (o_Z o) t) (slice (o_B o) t) with
    | Err e => (Err e, s)
    | Ok bnds => match sample_box E (p_M (o_par o)) bnds s with
                 | (Err e, s1) => (Err e, s1)
                 | (Ok Sx, s1) => (rows_fold (nu_row (slice (o_B o) t) (slice (o_Z o) t) (mT Sx) gx) 2 (mr gx) (mc gx), s1) end end.
  Proof.
    intros Hy Hk HZ HB Ht. unfold ncalculate_u. rewrite Hy, Hk. assert (KZ : a_k (o_Z o) = k) by apply HZ. assert (KB : a_k (o_B o) = k) by apply HB.
    unfold bind, lift. rewrite getsl_nat by lia. rewrite getsl_nat by lia. destruct (inter_bnds 2 _ _) as [bnds|e]; [|reflexivity].
    destruct (sample_box E (p_M (o_par o)) bnds s) as [[Sx|e] s1]; [|reflexivity]. f_equal. unfold rows_fold. apply rfold_ext_in. intros d u _. unfold nu_row.
    destruct (score_function_multid_seperate2_fun E (mT (slice (o_B o) t)) _ _ _ _ _) as [fb|e]; [|reflexivity]. cbn [rbind]. destruct (fb (mT gx)) as [sb|e]; [|reflexivity]. cbn [rbind].
    destruct (score_function_multid_seperate2_fun E (mT (slice (o_Z o) t)) _ _ _ _ _) as [fz|e]; [|reflexivity]. cbn [rbind]. destruct (fz (mT gx)) as [sz|e]; reflexivity.
  Qed.
  (** the estimate of either ensemble with given lengthscales *)
  Lemma est2_R (x : mat) rows m (ls : list R) d (gx : mat) v : mr x = 2 -> List.length rows = 2 -> List.length ls = 2 -> (forall e, e < 2 -> nth e ls 0%R <> 0%R) -> d < 2 -> mr gx = 2 ->
    (let! fn := score_function_multid_seperate2_fun E (mT x) (points m rows) nmilli "RBF" (LVec ls) (Z.of_nat d + 1) in fn (mT gx)) = Ok v ->
    exists sc, matched_score (mc x) m 2 (fun e => nth e ls 0%R) (particle x) (get (points m rows)) 0.002 0.001 d sc /\ List.length v = mc gx /\
      forall i, i < mc gx -> nth i v 0%R = sc (particle gx i).
  Proof.
    intros Hx Hr Hl Hn Hd Hg H. rewrite est_fun_same in H by (cbn; auto).
    assert (HA : estimator_args 2 (mT x) (points m rows) (LVec ls) nmilli).
    { split; [|split]; [split; [exact Hx|split; [exact Hr|exact Hl]]|exact Hn|rewrite Estimator.nmilli_R; lra]. }
    destruct (C43_functions E HI _ _ _ _ _ _ d (fe_separate E) HA Hd) as (a & fn & Ha & Q & V). rewrite Q in H. cbn [rbind] in H. rewrite (V (mT gx) Hg) in H. injection H as <-.
    rewrite lam_R in Ha. exists (expansion m 2 (fun e => nth e ls 0%R) (get (points m rows)) a). split; [|split].
    - exists a. split; [|auto]. eapply minimises_ext; [exact Hd| | |exact Ha]; cbv beta; [reflexivity|]. intros n e H1 H2. cbn [mT mk mr] in H1. unfold mT. now rewrite get_mk by lia.
    - now rewrite map_length, seq_length.
    - intros i Hi. rewrite nth_map_seq by auto. apply expansion_ext; [reflexivity|]. intros e He. unfold mT, particle. rewrite get_mk by lia. reflexivity.
  Qed.
  Lemma two_std_R (x : mat) e : 1 <= mc x -> e < mr x -> nth e (two_std x) 0%R = two_sigma x e.
  Proof. intros Hn He. rewrite lengthscales_eq. now apply lengthscales_nth. Qed.

  Theorem C77_control o N N' k gx t s u s' : List.length (p_y1 (o_par o)) = 2 -> o_kern o = "RBF" -> uniform_in_range E ->
    has_shape (o_Z o) 2 N k -> has_shape (o_B o) 2 N' k -> 1 <= N' -> t < k -> mr gx = 2 ->
    ncalculate_u E o gx (Z.of_nat t) s = (Ok u, s') ->
    let x := slice (o_Z o) t in let b := slice (o_B o) t in
    (forall d, d < 2 -> spread b d) ->
    mr u = 2 /\ mc u = mc gx /\
    exists z, between x b z (p_M (o_par o)) /\ forall d, d < 2 -> exists sb sx,
      matched_score N' (p_M (o_par o)) 2 (two_sigma b) (particle b) z 0.002 0.001 d sb /\
      matched_score N (p_M (o_par o)) 2 (two_sigma b) (particle x) z 0.002 0.001 d sx /\
      forall i, i < mc gx -> get u d i = (sb (particle gx i) - sx (particle gx i))%R.
  Proof.
    intros Hy Hk HU HZ HB HN' Ht Hg H x b Hs. apply has_shape_sh in HZ, HB. rewrite (ncalculate_u_eq o N N' k gx t s Hy Hk HZ HB Ht) in H. fold x b in H.
    destruct (sh_slice _ _ _ _ t HZ Ht) as (_ & RZ & CZ). destruct (sh_slice _ _ _ _ t HB Ht) as (_ & RB & CB). fold x in RZ, CZ. fold b in RB, CB.
    destruct (inter_bnds 2 x b) as [bnds|e] eqn:Hbn; [|discriminate]. destruct (sample_box E (p_M (o_par o)) bnds s) as [[Sx|e] s1] eqn:HS; [|discriminate]. injection H as Hr ->.
    apply sample_box_ok in HS. destruct HS as (rows & Hd & Hl & Hp & _). apply inter_bnds_ok in Hbn. destruct Hbn as (L & Hcr). rewrite Hp in Hr.
    apply rows_fold_ok in Hr. destruct Hr as (_ & R & C & _ & Hv & _). split; [congruence|]. split; [exact C|]. exists (get (points (p_M (o_par o)) rows)).
    split. { eapply between_R; eauto; rewrite RZ; auto. }
    pose proof (drawn_length E _ _ _ _ _ Hd) as Lr.
    assert (L2 : List.length (two_std b) = 2) by (rewrite two_std_length; auto).
    assert (NZ : forall e, e < 2 -> nth e (two_std b) 0%R <> 0%R).
    { intros e He. rewrite two_std_R by lia. unfold two_sigma. rewrite <- nstd_sqrt by lia. pose proof (nstd_pos b e (Hs e He)). lra. }
    intros d Hdd. destruct (Hv d Hdd) as (r & X1 & _ & X3 & X4). unfold nu_row in X1.
    apply rbind_ok in X1. destruct X1 as (fb & F1 & X1). apply rbind_ok in X1. destruct X1 as (vb & F2 & X1). apply rbind_ok in X1. destruct X1 as (fz & F3 & X1). apply rbind_ok in X1. destruct X1 as (vz & F4 & X1).
    destruct (est2_R b rows (p_M (o_par o)) (two_std b) d gx vb RB ltac:(lia) L2 NZ Hdd Hg) as (sb & B1 & B2 & B3). { rewrite F1. exact F2. }
    destruct (est2_R x rows (p_M (o_par o)) (two_std b) d gx vz RZ ltac:(lia) L2 NZ Hdd Hg) as (sx & A1 & A2 & A3). { rewrite F3. exact F4. }
    assert (EX : forall n y sc, matched_score n (p_M (o_par o)) 2 (fun e => nth e (two_std b) 0%R) y (get (points (p_M (o_par o)) rows)) 0.002 0.001 d sc ->
       exists sc', matched_score n (p_M (o_par o)) 2 (two_sigma b) y (get (points (p_M (o_par o)) rows)) 0.002 0.001 d sc' /\ forall q, sc' q = sc q).
    { intros n y sc (a & Ha & Q). exists (expansion (p_M (o_par o)) 2 (two_sigma b) (get (points (p_M (o_par o)) rows)) a). split.
      - exists a. split; [|auto]. eapply minimises_ext; [exact Hdd| | |exact Ha]; [|auto]. intros e He. cbv beta. apply two_std_R; lia.
      - intro q. rewrite Q. apply expansion_ext; [|auto]. intros e He. symmetry. apply two_std_R; lia. }
    destruct (EX _ _ _ B1) as (sb' & B4 & B5). destruct (EX _ _ _ A1) as (sx' & A4 & A5). rewrite CB in B4. rewrite CZ in A4.
    exists sb', sx'. split; [exact B4|]. split; [exact A4|]. intros i Hi. rewrite B5, A5, X4 by auto. rewrite (bc2_same nsub (vec vb) (vec vz) 1 (mc gx)) in X1 by (cbn; auto). injection X1 as <-.
    rewrite bget_in by (cbn; lia). rewrite get_mk by lia. rewrite !get_vec by lia. rewrite <- B3, <- A3 by auto. reflexivity.
  Qed.

  (** and it answers whenever both ensembles are non-empty *)
  Theorem C77_control_answers o N N' k gx t s : List.length (p_y1 (o_par o)) = 2 -> o_kern o = "RBF" -> no_overflow E ->
    has_shape (o_Z o) 2 N k -> has_shape (o_B o) 2 N' k -> 1 <= N -> 1 <= N' -> t < k -> mr gx = 2 ->
    exists u s', ncalculate_u E o gx (Z.of_nat t) s = (Ok u, s').
  Proof.
    intros Hy Hk HO HZ HB HN HN' Ht Hg. apply has_shape_sh in HZ, HB. rewrite (ncalculate_u_eq o N N' k gx t s Hy Hk HZ HB Ht).
    destruct (sh_slice _ _ _ _ t HZ Ht) as (_ & RZ & CZ). destruct (sh_slice _ _ _ _ t HB Ht) as (_ & RB & CB). set (x := slice (o_Z o) t) in *. set (b := slice (o_B o) t) in *.
    assert (exists bnds, inter_bnds 2 x b = Ok bnds /\ List.length bnds = 2) as (bnds & -> & Lb).
    { unfold inter_bnds. cbn [seq rmapM]. unfold inter_bnd, row. rewrite CZ, CB. destruct N; [lia|]. destruct N'; [lia|]. cbn. eauto. }
    destruct (sample_box_tot E (p_M (o_par o)) bnds HO s) as (Sx & s1 & -> & HSx).
    destruct (rows_fold_tot (nu_row b x (mT Sx) gx) 2 (mr gx) (mc gx)) as (u & ->); [lia| |eauto]. intros d Hd. unfold nu_row.
    assert (L2 : List.length (two_std b) = 2) by (rewrite two_std_length; auto). assert (CS : mc (mT Sx) = 2) by (cbn; lia).
    assert (G : forall w, mr w = 2 -> exists fn v, score_function_multid_seperate2_fun E (mT w) (mT Sx) nmilli "RBF" (LVec (two_std b)) (Z.of_nat d + 1) = Ok fn /\ fn (mT gx) = Ok v /\ List.length v = mc gx).
    { intros w Hw. destruct (scores_ok_R E HI 2 (mT w) (mT Sx) (two_std b) d) as (_ & fn & Hf & Hx); auto. destruct (Hx (mT gx) Hg) as (v & Hv).
      pose proof (est_fun_same E (mT w) (mT Sx) (mT gx) (two_std b) (Z.of_nat d + 1) Hw CS L2 Hg) as Q. rewrite Hf in Q. cbn [rbind] in Q. rewrite Hv in Q. apply rbind_ok in Q. destruct Q as (fn2 & Q1 & Q2).
      exists fn2, v. split; [exact Q1|]. split; [exact Q2|]. exact (score_fun_length E _ _ _ _ _ _ _ _ _ Hf Hv). }
    destruct (G b RB) as (fb & vb & -> & Hb & Lvb). cbn [rbind]. rewrite Hb. cbn [rbind]. destruct (G x RZ) as (fz & vz & -> & Hz & Lvz). cbn [rbind]. rewrite Hz. cbn [rbind].
    rewrite (bc2_same nsub (vec vb) (vec vz) 1 (mc gx)) by (cbn; auto). eexists. split; [reflexivity|]. auto.
  Qed.
End Runs.

(** ** the simulation *)
Section Simulation.
  Context {S : Type} (E : Ext R S).
  Local Notation mat := (mat R).
  (** the script's control: calculate_u of the object, but for the last four grid points the Gaussian one, indexed from the end *)
  Definition fate_control (o : obj R) (gauss : mat -> Z -> res mat) (k i : nat) (x : mat) (s : S) (U : mat) (s' : S) : Prop :=
    if k - 4 <=? i then gauss x (Z.of_nat (k - i)) = Ok U /\ s' = s else ncalculate_u E o x (Z.of_nat i) s = (Ok U, s').

  Lemma nu_rows o gx t s u s' : ncalculate_u E o gx t s = (Ok u, s') -> mr u = mr gx.
  Proof.
    unfold ncalculate_u. intro H. apply bind_ok in H. destruct H as (b & s1 & _ & H). apply bind_ok in H. destruct H as (z & s2 & _ & H). apply bind_ok in H. destruct H as (bn & s3 & _ & H).
    apply bind_ok in H. destruct H as (Sx & s4 & _ & H). apply lift_ok in H. destruct H as (H & _).
    apply (rfold_seq_inv _ (fun _ u => mr u = mr gx)) in H; [exact H|reflexivity|]. intros d v v' _ Hv Q.
    apply rbind_ok in Q. destruct Q as (? & _ & Q). apply rbind_ok in Q. destruct Q as (? & _ & Q). apply rbind_ok in Q. destruct Q as (? & _ & Q). apply rbind_ok in Q. destruct Q as (? & _ & Q).
    apply rbind_ok in Q. destruct Q as (r & _ & Q). unfold setrow in Q. destruct (pyidx (mr v) (Z.of_nat d)); [|discriminate]. apply rbind_ok in Q. destruct Q as (? & _ & Q). injection Q as <-. exact Hv.
  Qed.
  Definition two_rows (gauss : mat -> Z -> res mat) : Prop := forall x i U, mr x = 2 -> mc x = 1 -> gauss x i = Ok U -> mr U = 2.

  Lemma fs_step (o : obj R) (q : fate R) g gauss y1 k (c : fate_sim R) t i s : two_rows gauss ->
    k = List.length (o_grid o) -> 1 <= i < k -> List.length (fs_F c) = k -> List.length (fs_n c) = k -> List.length (fs_u c) = k ->
    List.length (nth (i-1) (fs_F c) []) = 2 -> List.length (nth (i-1) (fs_n c) []) = 2 ->
    forall c' s', fs_body E o q g gauss y1 c (i, t) s = (Ok c', s') ->
    exists F' n' u', c' = {| fs_F := upd (fs_F c) i F'; fs_n := upd (fs_n c) i n'; fs_u := upd (fs_u c) i u' |} /\ List.length F' = 2 /\ List.length n' = 2 /\
      fate_step E (nc_f q) g (fate_control o gauss k) (upd (fs_F c) i F') (upd (fs_n c) i n') (upd (fs_u c) i u') i s s'.
  Proof.
    intros HG Hk Hi LF Ln Lu HF Hn c' s' H. unfold fs_body in H. destruct (Nat.eqb_spec i 0); [lia|]. rewrite <- Hk in H.
    replace (Z.of_nat i - 1)%Z with (Z.of_nat (i - 1)) in H by lia.
    set (x := nth (i-1) (fs_F c) []) in *. set (y := nth (i-1) (fs_n c) []) in *.
    assert (PG : forall (A : list (list R)), List.length A = k -> pyget A (Z.of_nat (i-1)) = Ok (nth (i-1) A [])).
    { intros A LA. apply pyget_nat. lia. }
    rewrite (PG _ LF) in H. fold x in H. apply bind_ok in H. destruct H as (x' & s0 & H0 & H). apply lift_ok in H0. destruct H0 as (H0 & ->). injection H0 as <-.
    apply bind_ok in H. destruct H as (U & s1 & HU & H). rewrite setcolumn_nat in H by lia. apply bind_ok in H. destruct H as (us & s2 & H0 & H). apply lift_ok in H0. destruct H0 as (H0 & ->). injection H0 as <-.
    apply bind_ok in H. destruct H as (fx & s2 & H0 & H). apply lift_ok in H0. destruct H0 as (Hfx & ->).
    apply bind_ok in H. destruct H as (W & s2 & HW & H). rewrite setcolumn_nat in H by lia. apply bind_ok in H. destruct H as (F1 & s3 & H0 & H). apply lift_ok in H0. destruct H0 as (H0 & ->). injection H0 as <-.
    rewrite (PG _ Ln) in H. fold y in H. apply bind_ok in H. destruct H as (y' & s3 & H0 & H). apply lift_ok in H0. destruct H0 as (H0 & ->). injection H0 as <-.
    apply bind_ok in H. destruct H as (fy & s3 & H0 & H). apply lift_ok in H0. destruct H0 as (Hfy & ->).
    apply bind_ok in H. destruct H as (W' & s3 & HW' & H). rewrite setcolumn_nat in H by lia. apply bind_ok in H. destruct H as (N1 & s4 & H0 & H). apply lift_ok in H0. destruct H0 as (H0 & ->). injection H0 as <-.
    apply ret_ok in H. destruct H as (-> & ->). eexists _, _, _. split; [reflexivity|]. split; [reflexivity|]. split; [reflexivity|].
    unfold fate_step. rewrite !(upd_nth_other _ i (i-1)) by lia. rewrite !upd_nth_same by lia. fold x y.
    unfold normal in HW, HW'. destruct (x_normal E s1 (nsqrt dt) 1 2) as [w sw] eqn:QW. injection HW as <- <-. destruct (x_normal E sw (nsqrt dt) 1 2) as [w' sw'] eqn:QW'. injection HW' as <- <-.

    assert (EX : mT (vec x) = mk 2 1 (fun d _ => nth d x 0%R)).
    { unfold mT, vec. cbn [mr mc mk]. rewrite HF. apply mk_ext. intros a b Ha Hb. rewrite get_mk by lia. reflexivity. }
    rewrite EX in HU.
    assert (RU : mr U = 2).
    { destruct (Z.of_nat k - 4 <=? Z.of_nat i)%Z in HU; [apply lift_ok in HU; destruct HU as (HU & _); apply (HG _ _ _) in HU; [exact HU|reflexivity|reflexivity]|apply nu_rows in HU; exact HU]. }
    assert (CU : forall d, d < 2 -> nth d (col U 0) 0%R = get U d 0). { intros d Hd. unfold col. rewrite RU. rewrite nth_map_seq by auto. reflexivity. }
    exists U, s1, w, sw, w', fx, fy. split; [|split; [exact QW|split; [exact QW'|split; [exact Hfx|split; [exact Hfy|split; [|split]]]]]].
    - unfold fate_control. destruct (Z.leb_spec (Z.of_nat k - 4) (Z.of_nat i)) as [C|C].
      + destruct (Nat.leb_spec (k - 4) i); [|lia]. apply lift_ok in HU. replace (Z.of_nat (k - i)) with (Z.of_nat k - Z.of_nat i)%Z by lia. split; apply HU.
      + destruct (Nat.leb_spec (k - 4) i); [lia|]. exact HU.
    - intros d Hd. rewrite <- (CU d Hd). destruct d as [|[|d]]; [| |lia]; cbn [nth]; rewrite get_mk by lia; ring.
    - intros d Hd. destruct d as [|[|d]]; [| |lia]; cbn [nth]; rewrite get_mk by lia; ring.
    - exact CU.
  Qed.

  Lemma fate_step_frame drift g ctl F Fn u F' Fn' u' i s s' : (forall t, t <= i -> nth t F' [] = nth t F []) -> (forall t, t <= i -> nth t Fn' [] = nth t Fn []) -> (forall t, t <= i -> nth t u' [] = nth t u []) ->
    fate_step E drift g ctl F Fn u i s s' -> fate_step E drift g ctl F' Fn' u' i s s'.
  Proof. intros H1 H2 H3 H. unfold fate_step in *. rewrite !H1, !H2, !H3 by lia. exact H. Qed.

  Theorem C77_simulation (o : obj R) (q : fate R) g gauss y1 s c s' : let k := List.length (o_grid o) in two_rows gauss -> List.length y1 = 2 -> 1 <= k ->
    fate_simulation E o q g gauss y1 s = (Ok c, s') ->
    fate_paths E (nc_f q) g (fate_control o gauss k) y1 k (fs_F c) (fs_n c) (fs_u c) s s'.
  Proof.
    intros k HG Hy Hk H. unfold fate_simulation in H. rewrite (enumerate_map (o_grid o) 0%R) in H. fold k in H.
    apply (mfold_seq_inv _ _ (fun i c s' => List.length (fs_F c) = k /\ List.length (fs_n c) = k /\ List.length (fs_u c) = k /\ (forall t, t < k -> List.length (nth t (fs_F c) []) = 2 /\ List.length (nth t (fs_n c) []) = 2) /\
      (1 <= i -> nth 0 (fs_F c) [] = y1 /\ nth 0 (fs_n c) [] = y1) /\
      exists sg : nat -> S, sg 0 = s /\ sg (i - 1) = s' /\ forall j, 1 <= j < i -> fate_step E (nc_f q) g (fate_control o gauss k) (fs_F c) (fs_n c) (fs_u c) j (sg (j-1)) (sg j))) in H.
    - destruct H as (L1 & L2 & L3 & _ & H0 & H). destruct (H0 Hk) as (H1 & H2). repeat (split; [assumption|]). exact H.
    - cbn [fs_F fs_n fs_u]. rewrite repeat_length. split; [auto|]. split; [auto|]. split; [auto|]. split; [|split; [lia|]].
      + intros t Ht. rewrite (nth_indep _ [] [nzero; nzero]) by (rewrite repeat_length; auto). rewrite nth_repeat. auto.
      + exists (fun _ => s). split; [auto|]. split; [auto|]. intros; lia.
    - intros i b sb b' sb' Hi (L1 & L2 & L3 & LL & H0 & sg & G0 & G1 & ST) Q. destruct (Nat.eq_dec i 0) as [ -> |Hi0].
      + unfold fs_body in Q. cbn [Nat.eqb] in Q. change 0%Z with (Z.of_nat 0) in Q. rewrite !setcolumn_nat in Q by lia. cbn [rbind] in Q. apply lift_ok in Q. destruct Q as (Q & ->). injection Q as <-. cbn [fs_F fs_n fs_u].
        rewrite !upd_length. split; [auto|]. split; [auto|]. split; [auto|]. split; [|split].
        * intros t Ht. destruct (Nat.eq_dec t 0) as [ -> |N0]; [rewrite !upd_nth_same by lia; auto|rewrite !upd_nth_other by lia; auto].
        * intros _. rewrite !upd_nth_same by lia. auto.
        * exists (fun _ => sg (0 - 1)). split; [exact G0|]. split; [exact G1|]. intros; lia.
      + destruct (LL (i-1) ltac:(lia)) as (X1 & X2).
        destruct (fs_step o q g gauss y1 k b _ i sb HG eq_refl ltac:(lia) L1 L2 L3 X1 X2 b' sb' Q) as (F' & n' & u' & -> & LF & Ln & ST'). cbn [fs_F fs_n fs_u].
        rewrite !upd_length. split; [auto|]. split; [auto|]. split; [auto|]. split; [|split].
        * intros t Ht. destruct (Nat.eq_dec t i) as [ -> |N0]; [rewrite !upd_nth_same by lia; auto|rewrite !upd_nth_other by lia; auto].
        * intros _. rewrite !upd_nth_other by lia. apply H0. lia.
        * exists (fun j => if j =? i then sb' else sg j). destruct (Nat.eqb_spec 0 i); [lia|]. split; [exact G0|]. replace (Datatypes.S i - 1) with i by lia. rewrite Nat.eqb_refl. split; [reflexivity|].
          intros j Hj. destruct (Nat.eqb_spec (j - 1) i); [lia|]. destruct (Nat.eqb_spec j i) as [ -> |Nj].
          -- rewrite G1. exact ST'.
          -- eapply fate_step_frame; [| | |apply ST; lia]; intros t Ht; apply upd_nth_other; lia.
  Qed.

  (** it runs to the end when both ensembles are non-empty and the Gaussian control answers *)
  Theorem C77_simulation_runs (HI : inv_contract E) (o : obj R) N N' (q : fate R) g gauss y1 s : let k := List.length (o_grid o) in
    List.length (p_y1 (o_par o)) = 2 -> o_kern o = "RBF" -> no_overflow E -> has_shape (o_Z o) 2 N k -> has_shape (o_B o) 2 N' k -> 1 <= N -> 1 <= N' -> 1 <= k -> List.length y1 = 2 ->
    (forall x i, mr x = 2 -> mc x = 1 -> (1 <= i <= 4)%Z -> exists U, gauss x i = Ok U /\ mr U = 2) ->
    exists c s', fate_simulation E o q g gauss y1 s = (Ok c, s').
  Proof.
    intros k Hy Hkn HO HZ HB HN HN' Hk Hy1 HG. unfold fate_simulation. rewrite (enumerate_map (o_grid o) 0%R). fold k.
    destruct (mfold_seq_total (fs_body E o q g gauss y1) (fun i => (i, nth i (o_grid o) 0%R))
      (fun i c _ => List.length (fs_F c) = k /\ List.length (fs_n c) = k /\ List.length (fs_u c) = k /\ (forall t, t < k -> List.length (nth t (fs_F c) []) = 2 /\ List.length (nth t (fs_n c) []) = 2)) k
      {| fs_F := repeat [nzero; nzero] k; fs_n := repeat [nzero; nzero] k; fs_u := repeat [nzero; nzero] k |} s) as (c & s' & H & _); [| |eauto].
    - cbn [fs_F fs_n fs_u]. rewrite repeat_length. split; [auto|]. split; [auto|]. split; [auto|]. intros t Ht. rewrite (nth_indep _ [] [nzero; nzero]) by (rewrite repeat_length; auto). rewrite nth_repeat. auto.
    - intros i b sb Hi (L1 & L2 & L3 & LL). destruct (Nat.eq_dec i 0) as [ -> |Hi0].
      + unfold fs_body. cbn [Nat.eqb]. change 0%Z with (Z.of_nat 0). rewrite !setcolumn_nat by lia. cbn [rbind]. unfold lift. eexists _, _. split; [reflexivity|]. cbn [fs_F fs_n fs_u]. rewrite !upd_length.
        split; [auto|]. split; [auto|]. split; [auto|]. intros t Ht. destruct (Nat.eq_dec t 0) as [ -> |N0]; [rewrite !upd_nth_same by lia; auto|rewrite !upd_nth_other by lia; auto].
      + destruct (LL (i-1) ltac:(lia)) as (X1 & X2). unfold fs_body. destruct (Nat.eqb_spec i 0); [lia|]. fold k. unfold bind, lift. replace (Z.of_nat i - 1)%Z with (Z.of_nat (i-1)) by lia.
        rewrite (pyget_nat (fs_F b) (i-1) []) by lia. set (x := nth (i-1) (fs_F b) []) in *.
        assert (HC : exists U s1, (if (Z.of_nat k - 4 <=? Z.of_nat i)%Z then lift (gauss (mT (vec x)) (Z.of_nat k - Z.of_nat i)%Z) else ncalculate_u E o (mT (vec x)) (Z.of_nat i)) sb = (Ok U, s1)).
        { destruct (Z.leb_spec (Z.of_nat k - 4) (Z.of_nat i)).
          - destruct (HG (mT (vec x)) (Z.of_nat k - Z.of_nat i)%Z X1 eq_refl ltac:(lia)) as (U & -> & _). exists U, sb. reflexivity.
          - exact (C77_control_answers E HI o N N' k (mT (vec x)) i sb Hy Hkn HO HZ HB HN HN' Hi X1). }
        destruct HC as (U & s1 & HC). unfold lift in HC. rewrite HC. rewrite !setcolumn_nat by lia.
        assert (NF : forall z : list R, List.length z = 2 -> exists fz, nc_f q z = Ok fz). { intros [|a [|a' [|? l]]] Hz; cbn in Hz; try lia. eexists. reflexivity. }
        destruct (NF x X1) as (fx & ->). unfold normal. destruct (x_normal E s1 (nsqrt dt) 1 2) as [w sw]. rewrite (pyget_nat (fs_n b) (i-1) []) by lia.
        destruct (NF _ X2) as (fy & ->). destruct (x_normal E sw (nsqrt dt) 1 2) as [w' sw']. rewrite !setcolumn_nat by lia. unfold ret. eexists _, _. split; [reflexivity|]. cbn [fs_F fs_n fs_u]. rewrite !upd_length.
        split; [auto|]. split; [auto|]. split; [auto|]. intros t Ht. destruct (Nat.eq_dec t i) as [ -> |N0]; [rewrite !upd_nth_same by lia; split; reflexivity|rewrite !upd_nth_other by lia; auto].
  Qed.
End Simulation.

(** ** concrete cases *)
From Verif Require Import Run.RealExt Props.Witnesses.
Definition fate_w (g : R) (rej : bool) : params R := {|
  p_t1 := 0%R; p_t2 := (1/50)%R; p_y1 := [0; 1]%R; p_y2 := [1; 2]%R; p_f := ff; p_g := mk 1 1 (fun _ _ => g); p_N := 3; p_M := 2;
  p_reweight := false; p_U := None; p_dens_est := "nonparametric"; p_reject := rej; p_kern := "RBF"; p_f_true := None; p_brown := false; p_det := false |}.
Lemma fate_w_planar g rej : planar (fate_w g rej).
Proof. repeat split. Qed.
Lemma fate_w_posed g rej : well_posed (fate_w g rej).
Proof. constructor; cbn; auto; try lia; try discriminate. intros x t H1 H2. eexists. split; [reflexivity|]. cbn. auto. Qed.
(** C77_object, C77_runs, C77_zero_noise: objects with any amplitude, with and without rejection *)
Example W77_runs g rej s : exists o s', nconstruct RealExt (fate_w g rej) s = (Ok o, s').
Proof.
  destruct real_parts as (H1 & _ & _ & _ & H6).
  eapply (C77_runs RealExt H1 (fate_w g rej) s); [apply fate_w_planar|apply fate_w_posed|exact H6|cbn; lra|reflexivity|reflexivity|reflexivity].
Qed.
(** C77_control: the control of such an object at an interior grid point, with spread-out backward particles *)
Example W77_control gx s : mr gx = 2 -> exists o s1 u s', nconstruct RealExt (fate_w 0 false) s = (Ok o, s1) /\ has_shape (o_B o) 2 3 21 /\ (forall d, d < 2 -> spread (slice (o_B o) 19) d) /\
  ncalculate_u RealExt o gx 19 s1 = (Ok u, s').
Proof.
  intro Hg. destruct real_parts as (HI & _ & _ & _ & HO). destruct (W77_runs 0 false s) as (o & s1 & H). destruct (C77_object RealExt _ s o s1 (fate_w_planar 0 false) H) as (EP & EG & _ & sa & HZ & B & F & kept & HB & _ & HK & _ & HT).
  assert (L : List.length (o_grid o) = 21).
  { rewrite EG. rewrite length_grid. cbn [fate_w p_t1 p_t2]. rewrite (npts_spec 0 (1/50) 20); [reflexivity|]. replace (INR 20) with 20%R by (cbn; lra). lra. }
  rewrite (HK eq_refl) in HT. destruct HB as (SB & _ & BK & sg & _ & _ & ST). pose proof SB as (D & N & K & _). rewrite L in *. destruct HT as (ST' & GT). rewrite D, K in ST', GT.
  change (List.length (seq 0 (p_N (fate_w 0 false)))) with 3 in *. cbn [fate_w p_N] in N.
  specialize (ST 19 ltac:(lia) ltac:(lia)). cbn [Nat.eqb Nat.sub] in ST. unfold back_step in ST. destruct ST as (F1 & W & sc & s3 & _ & HF & _ & HV).
  apply has_shape_sh in SB. destruct (sh_slice _ _ _ _ 20 SB ltac:(lia)) as (_ & R1 & C1). change (19 + 1) with 20 in *. rewrite R1, C1 in HV. cbn in HF. injection HF as <-.
  assert (BV : forall d n, d < 2 -> n < 3 -> get3 (o_B o) d n 19 = (nth d [1; 2] 0 - INR n * (1/1000))%R).
  { intros d n Hd Hn. rewrite GT by lia. rewrite seq_nth by (cbn; lia). unfold get3. cbn [plus]. rewrite HV by (cbn; lia). unfold elem. cbn [fate_w p_g mr mc mk]. rewrite R1, C1. cbn [Nat.eqb]. change (p_N (fate_w 0 false)) with 3. cbn [Nat.eqb]. rewrite !get_mk by lia.
 pose proof (BK d n ltac:(lia) ltac:(cbn; lia)) as Q. cbn [Nat.sub] in Q. unfold get3 in Q. rewrite Q.
    unfold nsq. cbn -[nth INR]. lra. }
  assert (EK : o_kern o = "RBF"). { unfold nconstruct in H. apply bind_ok in H. destruct H as (? & ? & _ & H). apply bind_ok in H. destruct H as (? & ? & _ & H). apply bind_ok in H. destruct H as (? & ? & _ & H). apply ret_ok in H. destruct H as (-> & _). reflexivity. }
  destruct HZ as (SZ & _). rewrite L in SZ. cbn [fate_w p_N] in SZ.
  destruct (C77_control_answers RealExt HI o 3 3 21 gx 19 s1) as (u & s' & Hu); auto; try lia. { rewrite EP. reflexivity. }
  exists o, s1, u, s'. split; [exact H|]. split; [exact ST'|]. split; [|exact Hu].
  intros d Hd. destruct (sh_slice _ _ _ _ 19 (has_shape_sh _ _ _ _ ST') ltac:(lia)) as (_ & _ & C2). exists 0, 1. rewrite C2. split; [lia|]. split; [lia|].
  change (get3 (o_B o) d 0 19 <> get3 (o_B o) d 1 19). rewrite !BV by lia. cbn [INR]. lra.
Qed.
