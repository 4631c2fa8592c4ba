(** C66: a run in other units and with another origin of space and time is the image of the original run. *)
From Coq Require Import String List ZArith Reals Lra Lia Bool.
From Verif Require Import Base.Num Base.Py Base.Arr Lib.ArrLemmas Model.Ext Model.Cdist Model.Reweight Model.Score Model.DPFC.
From Verif Require Import Spec.FlowSpec Spec.RealSpec Spec.Contracts Spec.AffineSpec Lib.FlowLemmas Lib.StepLemmas Lib.RSum Lib.RBase Lib.ReweightLemmas Lib.Sim Lib.AffineLemmas Lib.AffineScore Lib.AffineSteps Lib.AffineRun.
From Verif Require Import Run.RealExt Props.Witnesses.
Import ListNotations.
Local Open Scope string_scope.
Local Open Scope R_scope.

Lemma timegrid_image (t1 t2 c : R) : grid_image c (timegrid t1 t2) (timegrid (t1 + c) (t2 + c)).
Proof.
  unfold timegrid, np_arange. cbv zeta. replace (nsub (nadd (t2 + c) (ndiv dt ntwo)) (t1 + c)) with (nsub (nadd t2 (ndiv dt ntwo)) t1) by (cbn; lra).
  split; [now rewrite !map_length|]. intros i Hi. rewrite map_length, seq_length in Hi. rewrite !nth_map_seq by auto. destruct i as [|[|i]]; cbn; ring.
Qed.

Lemma lin_setrow_m k A A' i r r' : times k A A' -> times k r r' -> same_outcome (times k) (setrow A i r) (setrow A' i r').
Proof.
  intros (H1 & H2 & H3) (V1 & V2 & V3). unfold setrow. rewrite H1. destruct (pyidx (mr A) i) as [d|]; [|reflexivity].
  unfold assign_shape. rewrite V1, V2, H2. destruct (((mr r =? 1)%nat || (mr r =? 1)%nat) && ((mc r =? mc A)%nat || (mc r =? 1)%nat)) eqn:C; [|reflexivity].
  apply andb_prop in C. destruct C as (C1 & C2). apply orb_prop in C1. apply orb_prop in C2. rewrite !Nat.eqb_eq in C1. rewrite !Nat.eqb_eq in C2. cbn [rbind same_outcome].
  apply times_mk. intros a b Ha Hb. destruct (a =? d)%nat; [|now apply H3]. rewrite !get_mk by lia. unfold bget. rewrite V1, V2. apply V3.
  - unfold bidx. destruct (Nat.eqb_spec (mr r) 1); lia.
  - apply (bidx_bound_a (mc r) (mc A)); assumption.
Qed.

Section C66.
  Context {S : Type} (E : Ext R S) (al c : R) (v : nat -> R) (Hal : 0 < al) (HU : uniform_affine E).
  Context (p p' : params R) (HP : problem_image al c v p p').

  Lemma FR_image grid A A' : FR al v p grid (fun _ _ _ => True) A A' -> flow_image al v A A'.
  Proof. intros ((_ & _ & H1 & H2 & H3 & H4) & _). split; [auto|]. split; [auto|]. split; [auto|]. intros. apply H4; auto. Qed.

  (** what is needed of a constructed object for the queries: the image, and well-formed arrays *)
  Definition obj_rel (o o' : obj R) : Prop :=
    grid_image c (o_grid o) (o_grid o') /\ FR al v p (o_grid o) (fun _ _ _ => True) (o_Z o) (o_Z o') /\ FR al v p (o_grid o) (fun _ _ _ => True) (o_B o) (o_B o') /\
    match o_Ztr o, o_Ztr o' with Some A, Some A' => p_det p = true -> FR al v p (o_grid o) (fun _ _ _ => True) A A' | None, None => True | _, _ => False end /\
    o_par o = p /\ o_par o' = p' /\ o_kern o = kern_used (p_kern p) /\ o_kern o' = kern_used (p_kern p).
  Context (HW : p_reweight p = true -> emd_plans (x_emd E) /\ (al = 1 \/ emd_unit_free E)).
  Context (HD : p_det p = true \/ (List.length (p_y1 p) <= 2)%nat).

  Lemma construct_rel : sim obj_rel (construct E p) (construct E p').
  Proof.
    unfold construct. rewrite (pi_t1 _ _ _ _ _ HP), (pi_t2 _ _ _ _ _ HP), (pi_kern _ _ _ _ _ HP), (pi_N _ _ _ _ _ HP), (pi_det _ _ _ _ _ HP), (pi_rw _ _ _ _ _ HP), (pi_brown _ _ _ _ _ HP).
    rewrite (dim' al c v p p' HP). pose proof (timegrid_image (p_t1 p) (p_t2 p) c) as HG. set (grid := timegrid (p_t1 p) (p_t2 p)) in *. set (grid' := timegrid (p_t1 p + c) (p_t2 p + c)) in *.
    rewrite (k' c grid grid' HG). pose proof (kern_used_not_periodic (p_kern p)) as Hk.
    eapply sim_bind with (P := fun ZZ ZZ' => FR al v p grid (fun _ _ _ => True) (fst ZZ) (fst ZZ') /\
      match snd ZZ, snd ZZ' with Some A, Some A' => p_det p = true -> FR al v p grid (fun _ _ _ => True) A A' | None, None => True | _, _ => False end).
    - destruct (p_det p) eqn:Hd.
      + eapply sim_bind; [apply (otto_aff E al c v Hal HU p p' HP HW grid grid' HG _ Hk)|]. intros Z1 Z1' HZ. destruct (p_reweight p && p_brown p).
        * eapply sim_bind; [apply (otto_true_aff E al c v Hal HU p p' HP grid grid' HG _ Hk)|]. intros Zt Zt' HZt. apply sim_ret. cbn. auto.
        * apply sim_ret. cbn. auto.
      + eapply sim_bind; [apply (stoch_aff E al c v Hal p p' HP HW grid grid' HG)|].
        * right. destruct HD as [|]; [congruence|auto].
        * exact Hd.
        * intros Z1 Z1' HZ. apply sim_ret. cbn. split; [exact HZ|]. destruct (p_reweight p && p_brown p); [discriminate|exact I].
    - intros ZZ ZZ' (HZ & HZt). eapply sim_bind; [apply (bw_aff E al c v Hal HU p p' HP grid grid' HG _ Hk HD (fst ZZ) (fst ZZ') HZ)|]. intros B B' HB. apply sim_ret.
      split; [exact HG|]. split; [exact HZ|]. split; [exact HB|]. split; [exact HZt|]. cbn. auto.
  Qed.

  (** the object, the exception raised instead of one, and the state of the generator afterwards *)
  Theorem C66_run s : same_outcome (object_image al c v) (fst (construct E p s)) (fst (construct E p' s)) /\ snd (construct E p' s) = snd (construct E p s).
  Proof.
    destruct (construct_rel s) as (H1 & H2). split; [|exact H2]. eapply so_weaken; [exact H1|]. intros o o' (G1 & G2 & G3 & G4 & G5 & _).
    split; [exact G1|]. split; [now apply (FR_image (o_grid o))|]. split; [now apply (FR_image (o_grid o))|].
    destruct (o_Ztr o), (o_Ztr o'); auto. rewrite G5. intro Hd. apply (FR_image (o_grid o)). auto.
  Qed.

  Lemma covered_rel o o' X X' ti : obj_rel o o' -> point_image al v X X' -> check_if_covered o' X' ti = check_if_covered o X ti.
  Proof.
    intros (G1 & G2 & G3 & _ & G5 & G6 & _) HX. apply so_eq_inv. unfold check_if_covered. rewrite G5, G6, (dim' al c v p p' HP).
    eapply so_weaken; [apply (so_rfold_seq (fun _ => @eq bool)); [reflexivity|]|auto]. intros i b _ Hi <-.
    eapply so_bind; [apply (FR_getsl al v p (o_grid o) _ _ _ ti G2); auto|]. intros z z' (Hz & _ & _ & Rz & _).
    eapply so_bind; [apply (FR_getsl al v p (o_grid o) _ _ _ ti G3); auto|]. intros bb bb' (Hb & _ & _ & Rb & _).
    eapply so_bind; [apply (inter_bnd_aff al v Hal z z' bb bb' i Hz Hb); lia|]. intros r r' (-> & ->).
    eapply so_bind; [apply (y_get al v p (o_grid o) X X' HX)|]. intros x x' ->. cbn [same_outcome]. f_equal. f_equal.
    - cbn. destruct (Rle_dec (fst r) x), (Rle_dec (al * fst r + v i) (al * x + v i)); auto; nra.
    - cbn. destruct (Rle_dec x (snd r)), (Rle_dec (al * x + v i) (al * snd r + v i)); auto; nra.
  Qed.
  Lemma inter_some n z b l : inter_bnds n z b = Ok l -> (0 < n)%nat -> row z 0 <> [] /\ row b 0 <> [].
  Proof.
    unfold inter_bnds. destruct n; [lia|]. cbn [seq rmapM]. intros H _. apply rbind_ok in H. destruct H as (r & H & _). unfold inter_bnd in H.
    apply rbind_ok in H. destruct H as (a & Ha & H). apply rbind_ok in H. destruct H as (a' & Ha' & _). split; intro Q; rewrite Q in *; discriminate.
  Qed.
  Lemma row_some (x : mat R) i j : row x i <> [] -> row x j <> [].
  Proof. intros H Q. apply (f_equal (@List.length R)) in Q. rewrite row_length in Q. apply H. apply length_zero_iff_nil. now rewrite row_length. Qed.
  Lemma gauss_row_aff gx gx' b b' z z' di : points_image al v gx gx' -> ensemble_image al v b b' -> ensemble_image al v z z' -> (di < mr b)%nat -> (di < mr z)%nat ->
    row b di <> [] -> row z di <> [] -> same_outcome (ltimes (/ al)) (gauss_row gx b z di) (gauss_row gx' b' z' di).
  Proof.
    intros Hx Hb Hz Db Dz Nb Nz. unfold gauss_row. eapply so_bind; [apply (column_aff al v gx gx' di Hx)|]. intros x x' (R1 & C1 & R1' & C1' & Q). cbn [same_outcome].
    rewrite (nmean_aff al (v di) _ _ (ens_row al v b b' di Hb Db) Nb), (nmean_aff al (v di) _ _ (ens_row al v z z' di Hz Dz) Nz).
    rewrite (nstd_aff al Hal (v di) _ _ (ens_row al v b b' di Hb Db)), (nstd_aff al Hal (v di) _ _ (ens_row al v z z' di Hz Dz)).
    set (m1 := nmean (row b di)). set (m2 := nmean (row z di)). set (s1 := nstd (row b di)). set (s2 := nstd (row z di)).
    clearbody m1 m2 s1 s2. unfold flat, col. rewrite R1, R1', !map_map. apply Forall2_seq. intros i Hi. rewrite Q by auto. unfold nsq. cbn. unfold Rdiv. rewrite !Rinv_mult.
    generalize (/ s1), (/ s2). intros i1 i2. field. lra.
  Qed.
  Lemma sim_lift_bind {A B C D} (P : A -> B -> Prop) (Q : C -> D -> Prop) (r : res A) r' (k : A -> M S C) k' :
    same_outcome P r r' -> (forall a a', r = Ok a -> P a a' -> sim Q (k a) (k' a')) -> sim Q (bind (lift r) k) (bind (lift r') k').
  Proof. intros H K. destruct r, r'; cbn [same_outcome] in H; try contradiction; [|subst; intro s; cbn; auto]. intro s. cbn. now apply K. Qed.

  Definition near_end (o : obj R) (ti : Z) : Prop := (ti <= 5 \/ Z.of_nat (List.length (o_grid o)) - 5 <= ti)%Z.
  Lemma control_rel o o' gx gx' ti : obj_rel o o' -> points_image al v gx gx' -> p_reweight p && p_brown p = false \/ (p_det p = true /\ near_end o ti) ->
    sim (times (/ al)) (calculate_u E o gx ti) (calculate_u E o' gx' ti).
  Proof.
    intros (G1 & G2 & G3 & G4 & G5 & G6 & G7 & G8) Hx Hcase. unfold calculate_u, bridged. rewrite G5, G6, G7, G8, (dim' al c v p p' HP), (pi_rw _ _ _ _ _ HP), (pi_brown _ _ _ _ _ HP), (pi_M _ _ _ _ _ HP).
    pose proof G1 as (LG & _). rewrite LG. pose proof (kern_used_not_periodic (p_kern p)) as Hk. pose proof Hx as (X1 & X2 & _). rewrite X1, X2.
    set (kern := kern_used (p_kern p)) in *. set (dim := List.length (p_y1 p)) in *.
    eapply sim_bind; [apply sim_lift, (FR_getsl al v p (o_grid o) _ _ _ ti G3); auto|]. intros b b' (Hb & _ & _ & Rb & Cb).
    eapply sim_bind; [apply sim_lift, (FR_getsl al v p (o_grid o) _ _ _ ti G2); auto|]. intros z z' (Hz & Wz & Wz' & Rz & Cz).
    eapply sim_bind with (P := fun fw fw' => good al v dim (p_N p) fw fw' /\ (p_reweight p && p_brown p = false -> fw = z /\ fw' = z')).
    { apply sim_lift. destruct (p_reweight p && p_brown p) eqn:Br.
      - destruct Hcase as [|(Hd & _)]; [discriminate|]. destruct (o_Ztr o), (o_Ztr o'); try contradiction; [|reflexivity].
        eapply so_weaken; [apply (FR_getsl al v p (o_grid o) _ _ _ ti (G4 Hd)); auto|]. intros fw fw' H. split; [exact H|discriminate].
      - cbn [same_outcome]. split; [|auto]. split; [exact Hz|]. auto. }
    intros fw fw' ((Hw & _ & _ & Rw & Cw) & Heq).
    apply (sim_lift_bind (fun l l' => F2i (fun i (b b' : R * R) => fst b' = al * fst b + v i /\ snd b' = al * snd b + v i) 0 l l' /\ List.length l = dim));
      [apply (inter_bnds_aff al v Hal dim fw fw' b b' Hw Hb); lia|].
    intros bs bs' Hok (Hbs & Lbs).
    destruct ((ti <=? 5)%Z || (Z.of_nat (List.length (o_grid o)) - 5 <=? ti)%Z) eqn:Win.
    - apply sim_lift. eapply so_weaken; [apply (so_rfold_seq (fun _ => times (/ al)))|auto].
      + apply times_mk. intros. cbn. ring.
      + intros i u u' Hi Hu. destruct (inter_some dim fw b bs Hok ltac:(lia)) as (N1 & N2).
        eapply so_bind; [apply (gauss_row_aff gx gx' b b' fw fw' i Hx Hb Hw); try lia; eauto using row_some|]. intros r r' Hr.
        eapply so_weaken; [apply (lin_setrow (/ al) u u' _ r r' Hu Hr)|]. now intros ? ? (? & _).
    - assert (Br : p_reweight p && p_brown p = false).
      { destruct Hcase as [|(_ & Hn)]; [auto|]. exfalso. apply orb_false_elim in Win. rewrite !Z.leb_gt in Win. unfold near_end in Hn. lia. }
      rewrite Br. destruct (Heq Br) as (-> & ->). eapply sim_bind; [apply (sample_box_aff E al v Hal HU (p_M p) bs bs' Hbs)|]. intros Sx Sx' (HS & RS & CS). apply sim_lift.
      eapply so_weaken; [apply (so_rfold_seq (fun _ => times (/ al)))|auto].
      + apply times_mk. intros. cbn. ring.
      + intros i u u' Hi Hu.
        eapply so_bind; [apply (score_fun_aff E al v Hal kern nmilli); auto using (ens_mT al v), (two_std_aff al v Hal); cbn [mT mk mc]; congruence|]. intros fb fb' Hfb.
        eapply so_bind; [apply Hfb, Hx|]. intros sb sb' Hsb. eapply so_bind with (P := ltimes (/ al)).
        * eapply so_bind; [apply (score_fun_aff E al v Hal kern nmilli); auto using (ens_mT al v), (two_std_aff al v Hal); cbn [mT mk mc]; congruence|]. intros ff ff' Hff. now apply Hff.
        * intros sf sf' Hsf. eapply so_bind; [apply (times_bc_sub (/ al) _ _ _ _ (ltimes_vec _ _ _ Hsb) (ltimes_vec _ _ _ Hsf))|]. intros r r' Hr.
          now apply lin_setrow_m.
  Qed.

  (** queries of the two objects that runs from the same generator state return *)
  Theorem C66_covered s o o' X X' ti : fst (construct E p s) = Ok o -> fst (construct E p' s) = Ok o' -> point_image al v X X' ->
    check_if_covered o' X' ti = check_if_covered o X ti.
  Proof. intros H H' HX. pose proof (construct_rel s) as (Q & _). rewrite H, H' in Q. now apply covered_rel. Qed.
  Theorem C66_control s o o' gx gx' ti s1 : fst (construct E p s) = Ok o -> fst (construct E p' s) = Ok o' -> points_image al v gx gx' ->
    p_reweight p && p_brown p = false \/ (p_det p = true /\ (ti <= 5 \/ Z.of_nat (List.length (o_grid o)) - 5 <= ti)%Z) ->
    same_outcome (times (/ al)) (fst (calculate_u E o gx ti s1)) (fst (calculate_u E o' gx' ti s1)) /\
    snd (calculate_u E o' gx' ti s1) = snd (calculate_u E o gx ti s1).
  Proof. intros H H' Hx Hc. pose proof (construct_rel s) as (Q & _). rewrite H, H' in Q. now apply control_rel. Qed.
End C66.

(** *** a concrete case: the problem real_problem of Run/RealExt.v in other units and with other origins *)
Lemma RealExt_uniform : uniform_affine RealExt.
Proof. intros s a b lo hi m Ha. cbn. split; [auto|]. intros i Hi. unfold Rdiv. ring. Qed.
Definition moved_f (al : R) (v : nat -> R) : callable R := {| call1 := fun _ => Err TypeError;
  call2 := fun x _ => Ok (mk (mr x) (mc x) (fun d n => v d - get x d n)) |}.
Definition moved_U (al c : R) (v : nat -> R) : callable R := {| call1 := fun _ => Err TypeError;
  call2 := fun x t => Ok (vec (map (fun n => ((get x 1 n - v 1%nat) / al - sin (t - c)) ^ 2) (seq 0 (mc x)))) |}.
Definition moved_problem (al c : R) (v : nat -> R) (rw brown : bool) : params R := {|
  p_t1 := c; p_t2 := 1/50 + c; p_y1 := [v 0%nat; al + v 1%nat]; p_y2 := [al + v 0%nat; 2 * al + v 1%nat]; p_f := moved_f al v;
  p_g := mk 1 1 (fun _ _ => al / 2); p_N := 3; p_M := 2; p_reweight := rw; p_U := Some (moved_U al c v); p_dens_est := "nonparametric"; p_reject := true;
  p_kern := "RBF"; p_f_true := Some (moved_f al v); p_brown := brown; p_det := true |}.
Lemma moved_f_image al c v x x' t : ensemble_image al v x x' -> same_outcome (times al) (call2 rf x t) (call2 (moved_f al v) x' (t + c)).
Proof.
  intros (H1 & H2 & H3). cbn [rf moved_f call2 same_outcome]. split; [exact H1|]. split; [exact H2|]. intros d n Hd Hn. unfold mopp, mmap1 in *. cbn [mk mr mc] in Hd, Hn.
  rewrite !get_mk by lia. rewrite H3 by auto. cbn. ring.
Qed.
Lemma moved_image al c v rw brown : 0 < al -> problem_image al c v (real_problem rw brown) (moved_problem al c v rw brown).
Proof.
  intro Hal. constructor; try reflexivity; cbn [real_problem moved_problem p_t1 p_t2 p_y1 p_y2 p_f p_g p_U p_f_true p_N].
  - lra.
  - split; [reflexivity|]. intros [|[|d]] Hd; cbn in *; try lra; lia.
  - split; [reflexivity|]. intros [|[|d]] Hd; cbn in *; try lra; lia.
  - intros x x' t _ _ _ _ Hx. now apply moved_f_image.
  - split; [reflexivity|]. split; [reflexivity|]. intros i j Hi Hj. cbn [mk mr mc] in Hi, Hj. rewrite !get_mk by lia. lra.
  - intros x x' t _ _ Hm Hn Hx. pose proof Hx as (H1 & H2 & H3). cbn [ocall2 rU moved_U call2 same_outcome]. rewrite H2.
    split; [reflexivity|]. split; [cbn [vec mk mc]; now rewrite !map_length, !seq_length|]. cbn [vec mk mr mc]. intros i j Hi Hj. rewrite map_length, seq_length in Hj.
    unfold vec. rewrite !get_mk by (rewrite ?map_length, ?seq_length; lia). rewrite !nth_map_seq by auto. rewrite H3 by (cbn in Hm; lia).
    replace ((al * get x 1 j + v 1%nat - v 1%nat) / al) with (get x 1 j) by (field; lra). replace (t + c - c) with t by ring. ring.
  - intros x x' t _ _ _ _ Hx. now apply moved_f_image.
Qed.
(** every hypothesis of the three theorems holds for it: without reweighting at any scale, with reweighting at scale 1, and the run completes *)
Example W66_hypotheses : forall al c v brown, 0 < al ->
  let p := real_problem false brown in let p' := moved_problem al c v false brown in
  uniform_affine RealExt /\ problem_image al c v p p' /\ (p_reweight p = true -> emd_plans (x_emd RealExt) /\ (al = 1 \/ emd_unit_free RealExt)) /\
  (p_det p = true \/ (List.length (p_y1 p) <= 2)%nat) /\ p_reweight p && p_brown p = false.
Proof.
  intros al c v brown Hal. cbv zeta. split; [apply RealExt_uniform|]. split; [now apply moved_image|]. split; [discriminate|]. split; [now left|reflexivity].
Qed.
Example W66_reweight : forall c v brown,
  let p := real_problem true brown in let p' := moved_problem 1 c v true brown in
  uniform_affine RealExt /\ problem_image 1 c v p p' /\ (p_reweight p = true -> emd_plans (x_emd RealExt) /\ (1 = 1 \/ emd_unit_free RealExt)) /\
  (p_det p = true \/ (List.length (p_y1 p) <= 2)%nat).
Proof.
  intros c v brown. cbv zeta. split; [apply RealExt_uniform|]. split; [apply moved_image; lra|]. split; [|now left].
  intros _. split; [|now left]. apply emd_contract_plans. exact real_emd_ok.
Qed.
(** ... so the run of the moved problem completes, with the image of the flow of the original one *)
Example W66 : forall al c v s, 0 < al -> exists o o', fst (construct RealExt (real_problem false false) s) = Ok o /\
  fst (construct RealExt (moved_problem al c v false false) s) = Ok o' /\ List.length (o_grid o') = 21%nat /\ object_image al c v o o'.
Proof.
  intros al c v s Hal. destruct (W66_hypotheses al c v false Hal) as (H1 & H2 & H3 & H4 & _). destruct (C66_run RealExt al c v Hal H1 _ _ H2 H3 H4 s) as (Q & _).
  destruct (real_run false false s) as (o & s' & Ho & L & _). rewrite Ho in Q |- *. destruct (fst (construct RealExt (moved_problem al c v false false) s)) as [o'|e] eqn:Ho'; [|destruct Q].
  exists o, o'. split; [reflexivity|]. split; [reflexivity|]. split; [|exact Q]. destruct Q as ((G & _) & _). now rewrite G.
Qed.
