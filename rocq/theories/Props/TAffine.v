(** C66 for class torched_DPFC: a run in other units and with another origin of space and time is the image of the original run. *)
From Coq Require Import String List ZArith Reals Lra Lia Bool.
From Verif Require Import Base.Num Base.Py Base.Arr Lib.ArrLemmas Model.Ext Model.Cdist Model.Reweight Model.Score Model.ScoreTorch Model.DPFC Model.TDPFC.
From Verif Require Import Spec.FlowSpec Spec.RealSpec Spec.Contracts Spec.AffineSpec Lib.FlowLemmas Lib.StepLemmas Lib.RSum Lib.RBase Lib.ReweightLemmas Lib.Sim Lib.AffineLemmas Lib.AffineScore Lib.AffineSteps Lib.AffineRun.
From Verif Require Import Lib.TAffineScore Lib.TAffineSteps Lib.TAffineRun Run.RealExt Props.Witnesses Props.Affine.
Import ListNotations.
Local Open Scope string_scope.
Local Open Scope R_scope.

Lemma t_timegrid_image (t1 t2 c : R) : same_outcome (grid_image c) (t_timegrid t1 t2) (t_timegrid (t1 + c) (t2 + c)).
Proof.
  unfold t_timegrid, t_arange. replace (nsub (nadd (t2 + c) (ndiv dt ntwo)) (t1 + c)) with (nsub (nadd t2 (ndiv dt ntwo)) t1) by (cbn; lra).
  replace (nleb (t1 + c) (nadd (t2 + c) (ndiv dt ntwo))) with (nleb t1 (nadd t2 (ndiv dt ntwo)))
    by (cbn; repeat match goal with |- context[Rle_dec ?a ?b] => destruct (Rle_dec a b) end; auto; lra).
  destruct (nleb t1 _); [|reflexivity]. cbn [same_outcome].
  split; [now rewrite !map_length|]. intros i Hi. rewrite map_length, seq_length in Hi. rewrite !nth_map_seq by auto. cbn. ring.
Qed.

Section C66T.
  Context {S : Type} (E : Ext R S) (al c : R) (v : nat -> R) (Hal : 0 < al) (HU : tuniform_affine E).
  Context (p p' : params R) (HP : problem_image al c v p p').
  Context (HW : p_reweight p = true -> emd_plans (x_otemd E)).
  Context (HD : p_det p = true \/ (List.length (p_y1 p) <= 2)%nat) (HB : p_reweight p && p_brown p = false \/ p_det p = false).
  Notation obj_rel := (obj_rel al c v p p').

  Lemma t_construct_rel b : sim obj_rel (t_construct E b p) (t_construct E b p').
  Proof.
    unfold t_construct. rewrite (pi_t1 _ _ _ _ _ HP), (pi_t2 _ _ _ _ _ HP), (pi_kern _ _ _ _ _ HP), (pi_N _ _ _ _ _ HP), (pi_det _ _ _ _ _ HP), (pi_rw _ _ _ _ _ HP), (pi_brown _ _ _ _ _ HP).
    eapply sim_bind with (P := fun d d' => d = List.length (p_y1 p) /\ d' = d).
    { apply sim_lift. destruct b; cbn [size_dim0 same_outcome]; auto. rewrite (dim' al c v p p' HP). auto. }
    intros d ? (-> & ->). eapply sim_bind; [apply sim_lift, t_timegrid_image|]. intros grid grid' HG.
    rewrite (k' c grid grid' HG).
    eapply sim_bind with (P := fun ZZ ZZ' => FR al v p grid (fun _ _ _ => True) (fst ZZ) (fst ZZ') /\
      match snd ZZ, snd ZZ' with Some A, Some A' => p_det p = true -> FR al v p grid (fun _ _ _ => True) A A' | None, None => True | _, _ => False end).
    - destruct (p_det p) eqn:Hd.
      + eapply sim_bind; [apply (t_otto_aff E al c v Hal HU p p' HP HW grid grid' HG)|]. intros Z1 Z1' HZ. destruct HB as [->|]; [|congruence]. apply sim_ret. cbn. auto.
      + eapply sim_bind; [apply (t_stoch_aff E al c v Hal p p' HP HW grid grid' HG)|].
        * destruct HD as [|]; [congruence|auto].
        * intros Z1 Z1' HZ. apply sim_ret. cbn. split; [exact HZ|]. destruct (p_reweight p && p_brown p); [discriminate|exact I].
    - intros ZZ ZZ' (HZ & HZt). eapply sim_bind; [apply (t_bw_aff E al c v Hal HU p p' HP grid grid' HG _ (fst ZZ) (fst ZZ') HZ)|]. intros B B' HBB. apply sim_ret.
      split; [exact HG|]. split; [exact HZ|]. split; [exact HBB|]. split; [exact HZt|]. cbn. auto.
  Qed.

  (** the object, the exception raised instead of one, and the state of the generator afterwards *)
  Theorem C66_torch_run b s : same_outcome (object_image al c v) (fst (t_construct E b p s)) (fst (t_construct E b p' s)) /\
    snd (t_construct E b p' s) = snd (t_construct E b p s).
  Proof.
    destruct (t_construct_rel b s) as (H1 & H2). split; [|exact H2]. eapply so_weaken; [exact H1|]. intros o o' (G1 & G2 & G3 & G4 & G5 & _).
    split; [exact G1|]. split; [now apply (FR_image al v p (o_grid o))|]. split; [now apply (FR_image al v p (o_grid o))|].
    destruct (o_Ztr o), (o_Ztr o'); auto. rewrite G5. intro Hd. apply (FR_image al v p (o_grid o)). auto.
  Qed.

  Lemma t_covered_rel o o' X X' ti : obj_rel o o' -> point_image al v X X' -> t_check_if_covered o' X' ti = t_check_if_covered o X ti.
  Proof.
    intros (G1 & G2 & G3 & _ & G5 & G6 & _) HX. apply so_eq_inv. unfold t_check_if_covered. rewrite G5, G6, (dim' al c v p p' HP).
    eapply so_weaken; [apply (so_rfold_seq (fun _ => @eq bool)); [reflexivity|]|auto]. intros i b _ Hi <-.
    eapply so_bind; [apply (FR_getsl al v p (o_grid o) _ _ _ ti G2); auto|]. intros z z' (Hz & _ & _ & Rz & _).
    eapply so_bind; [apply (FR_getsl al v p (o_grid o) _ _ _ ti G3); auto|]. intros bb bb' (Hb & _ & _ & Rb & _).
    eapply so_bind; [apply (hull_bnd_aff al v Hal z z' bb bb' i Hz Hb); lia|]. intros r r' (-> & ->).
    eapply so_bind; [apply (y_get al v p (o_grid o) X X' HX)|]. intros x x' ->. cbn [same_outcome]. f_equal. f_equal.
    - cbn. destruct (Rle_dec (fst r) x), (Rle_dec (al * fst r + v i) (al * x + v i)); auto; nra.
    - cbn. destruct (Rle_dec x (snd r)), (Rle_dec (al * x + v i) (al * snd r + v i)); auto; nra.
  Qed.
  Lemma hull_some n (z b : mat R) l : hull_bnds n z b = Ok l -> (0 < n)%nat -> row z 0 <> [] /\ row b 0 <> [].
  Proof.
    unfold hull_bnds. destruct n; [lia|]. cbn [seq rmapM]. intros H _. apply rbind_ok in H. destruct H as (r & H & _). unfold hull_bnd in H.
    apply rbind_ok in H. destruct H as (a & Ha & H). apply rbind_ok in H. destruct H as (a' & Ha' & _). split; intro Q; rewrite Q in *; discriminate.
  Qed.
  Lemma t_gauss_row_aff gx gx' b b' z z' di : points_image al v gx gx' -> ensemble_image al v b b' -> ensemble_image al v z z' -> (di < mr b)%nat -> (di < mr z)%nat ->
    row b di <> [] -> row z di <> [] -> same_outcome (ltimes (/ al)) (t_gauss_row gx b z di) (t_gauss_row gx' b' z' di).
  Proof.
    intros Hx Hb Hz Db Dz Nb Nz. unfold t_gauss_row. eapply so_bind; [apply (column_aff al v gx gx' di Hx)|]. intros x x' (R1 & C1 & R1' & C1' & Q). cbn [same_outcome].
    rewrite (nmean_aff al (v di) _ _ (ens_row al v b b' di Hb Db) Nb), (nmean_aff al (v di) _ _ (ens_row al v z z' di Hz Dz) Nz).
    rewrite (tstd_aff al Hal (v di) _ _ (ens_row al v b b' di Hb Db)), (tstd_aff al Hal (v di) _ _ (ens_row al v z z' di Hz Dz)).
    set (m1 := nmean (row b di)). set (m2 := nmean (row z di)). set (s1 := tstd (row b di)). set (s2 := tstd (row z di)).
    clearbody m1 m2 s1 s2. unfold flat, col. rewrite R1, R1', !map_map. apply Forall2_seq. intros i Hi. rewrite Q by auto. unfold nsq. cbn. unfold Rdiv. rewrite !Rinv_mult.
    generalize (/ s1), (/ s2). intros i1 i2. field. lra.
  Qed.

  Lemma t_control_rel o o' gx gx' ti : obj_rel o o' -> points_image al v gx gx' -> p_reweight p && p_brown p = false -> mc gx = List.length (p_y1 p) ->
    sim (times (/ al)) (t_calculate_u E o gx ti) (t_calculate_u E o' gx' ti).
  Proof.
    intros (G1 & G2 & G3 & G4 & G5 & G6 & G7 & G8) Hx Br Hc. unfold t_calculate_u, bridged. rewrite G5, G6, G7, G8, (dim' al c v p p' HP), (pi_rw _ _ _ _ _ HP), (pi_brown _ _ _ _ _ HP), (pi_M _ _ _ _ _ HP).
    pose proof G1 as (LG & _). rewrite LG. pose proof Hx as (X1 & X2 & _). rewrite X1, X2, Br.
    set (kern := kern_used (p_kern p)) in *. set (dim := List.length (p_y1 p)) in *.
    eapply sim_bind; [apply sim_lift, (FR_getsl al v p (o_grid o) _ _ _ ti G3); auto|]. intros b b' (Hb & _ & _ & Rb & Cb).
    eapply sim_bind; [apply sim_lift, (FR_getsl al v p (o_grid o) _ _ _ ti G2); auto|]. intros z z' (Hz & Wz & Wz' & Rz & Cz). fold dim in Rb, Rz.
    eapply sim_bind with (P := fun fw fw' => fw = z /\ fw' = z'); [apply sim_lift; cbn; auto|]. intros ? ? (-> & ->).
    apply (sim_lift_bind (fun l l' => F2i (fun i (b b' : R * R) => fst b' = al * fst b + v i /\ snd b' = al * snd b + v i) 0 l l' /\ List.length l = dim));
      [apply (hull_bnds_aff al v Hal dim z z' b b' Hz Hb); lia|].
    intros bs bs' Hok (Hbs & Lbs).
    destruct ((ti <=? 5)%Z || (Z.of_nat (List.length (o_grid o)) - 5 <=? ti)%Z) eqn:Win.
    - apply sim_lift. eapply so_weaken; [apply (so_rfold_seq (fun _ => times (/ al)))|auto].
      + apply times_mk. intros. cbn. ring.
      + intros i u u' Hi Hu. destruct (hull_some dim z b bs Hok ltac:(lia)) as (N1 & N2).
        eapply so_bind; [apply (t_gauss_row_aff gx gx' b b' z z' i Hx Hb Hz); try lia; eauto using row_some|]. intros r r' Hr.
        apply so_tor. eapply so_weaken; [apply (lin_setrow (/ al) u u' _ r r' Hu Hr)|]. now intros ? ? (? & _).
    - eapply sim_bind; [apply (t_sample_box_aff E al v Hal HU (p_M p) bs bs' Hbs)|]. intros Sx Sx' (HS & RS & CS). apply sim_lift.
      assert (Cd : mc gx = mc Sx) by congruence.
      eapply so_bind; [apply (tscore_fun_aff E al v Hal nmilli kern _ _ _ _ _ _ (ens_mT al v _ _ Hb) HS); [cbn [mT mk mc]; congruence|cbn; apply (two_tstd_aff al v Hal), Hb]|].
      intros fb fb' Hfb. eapply so_bind; [apply Hfb; [exact Hx|exact Cd]|]. intros sb sb' Hsb.
      eapply so_bind; [apply (tscore_fun_aff E al v Hal nmilli kern _ _ _ _ _ _ (ens_mT al v _ _ Hz) HS); [cbn [mT mk mc]; congruence|cbn; apply (two_tstd_aff al v Hal), Hz]|].
      intros ff ff' Hff. eapply so_bind; [apply Hff; [exact Hx|exact Cd]|]. intros sf sf' Hsf.
      apply (tbc_sub (/ al)); now apply times_mT.
  Qed.

  (** queries of the two objects that runs from the same generator state return *)
  Theorem C66_torch_covered b s o o' X X' ti : fst (t_construct E b p s) = Ok o -> fst (t_construct E b p' s) = Ok o' -> point_image al v X X' ->
    t_check_if_covered o' X' ti = t_check_if_covered o X ti.
  Proof. intros H H' HX. pose proof (t_construct_rel b s) as (Q & _). rewrite H, H' in Q. now apply t_covered_rel. Qed.
  Theorem C66_torch_control b s o o' gx gx' ti s1 : fst (t_construct E b p s) = Ok o -> fst (t_construct E b p' s) = Ok o' -> points_image al v gx gx' ->
    p_reweight p && p_brown p = false -> mc gx = List.length (p_y1 p) ->
    same_outcome (times (/ al)) (fst (t_calculate_u E o gx ti s1)) (fst (t_calculate_u E o' gx' ti s1)) /\
    snd (t_calculate_u E o' gx' ti s1) = snd (t_calculate_u E o gx ti s1).
  Proof. intros H H' Hx Hc Hm. pose proof (t_construct_rel b s) as (Q & _). rewrite H, H' in Q. now apply t_control_rel. Qed.
End C66T.

(** *** the problem real_problem of Run/RealExt.v in other units and with other origins meets all hypotheses, with reweighting too *)
Lemma RealExt_tuniform : tuniform_affine RealExt.
Proof.
  intros s a b lo hi lo' hi' m Ha _ _ _ H. cbn. split; [reflexivity|]. intros i d _ Hd. destruct (H d Hd) as (-> & ->). unfold Rdiv. ring.
Qed.
Example W66_torch_hypotheses : forall al c v rw brown, 0 < al -> rw && brown = false ->
  let p := real_problem rw brown in let p' := moved_problem al c v rw brown in
  tuniform_affine RealExt /\ problem_image al c v p p' /\ (p_reweight p = true -> emd_plans (x_otemd RealExt)) /\
  (p_det p = true \/ (List.length (p_y1 p) <= 2)%nat) /\ p_reweight p && p_brown p = false.
Proof.
  intros al c v rw brown Hal Hb. cbv zeta. split; [apply RealExt_tuniform|]. split; [now apply moved_image|]. split; [|split; [now left|exact Hb]].
  intros _. apply (emd_contract_plans RealExt). exact real_emd_ok.
Qed.
