(** The score estimates in other units and with another origin (no modelling content): 1/al times the old ones, the same exceptions,
    whatever the matrix inversion does and also for lengthscale zero. *)
From Coq Require Import String List ZArith Reals Lra Lia Bool.
From Verif Require Import Base.Num Base.Py Base.Arr Lib.ArrLemmas Model.Ext Model.Cdist Model.Score Spec.FlowSpec Spec.RealSpec Spec.AffineSpec Lib.RSum Lib.RBase Lib.Sim Lib.AffineLemmas.
Import ListNotations.
Local Open Scope string_scope.
Local Open Scope R_scope.

Lemma so_trans_eq {A B} (P : A -> B -> Prop) r r' q : same_outcome P r r' -> q = r' -> same_outcome P r q.
Proof. now intros H ->. Qed.
Lemma times_mmul_mc a b A A' B B' : times a A A' -> times b B B' -> same_outcome (fun C C' => times (a * b) C C' /\ mc C = mc B) (mmul A B) (mmul A' B').
Proof.
  intros HA HB. eapply so_with; [apply (times_mmul a b A A' B B' HA HB)|]. intros C C' E _ H. split; [exact H|]. unfold mmul in E. destruct (mc A =? mr B)%nat; [|discriminate]. injection E as <-. reflexivity.
Qed.

Section Score.
  Context {S : Type} (E : Ext R S) (al : R) (v : nat -> R) (Hal : 0 < al).
  Notation pts := (points_image al v).

  (** one column of points *)
  Lemma column_aff x x' ii : pts x x' -> same_outcome (fun c c' => mr c = mr x /\ mc c = 1%nat /\ mr c' = mr x /\ mc c' = 1%nat /\
     forall i, (i < mr x)%nat -> get c' i 0 = al * get c i 0 + v ii) (column x ii) (column x' ii).
  Proof.
    intros (H1 & H2 & H3). unfold column. rewrite H1, H2. destruct (Nat.ltb_spec ii (mc x)) as [Hi|]; [|reflexivity]. cbn [same_outcome].
    split; [auto|]. split; [auto|]. split; [auto|]. split; [auto|]. intros i Hi'. rewrite !get_mk by lia. now apply H3.
  Qed.
  Lemma column_cdist x x' y y' b : (mr x' = mr x)%nat -> (mr y' = mr y)%nat -> mc x = 1%nat -> mc x' = 1%nat -> mc y = 1%nat -> mc y' = 1%nat ->
    (forall i, (i < mr x)%nat -> get x' i 0 = al * get x i 0 + b) -> (forall i, (i < mr y)%nat -> get y' i 0 = al * get y i 0 + b) ->
    same_outcome (times (al * al)) (cdist_sq x y) (cdist_sq x' y').
  Proof.
    intros R1 R2 C1 C2 C3 C4 G1 G2. unfold cdist_sq. rewrite R1, R2, C1, C2, C3, C4. cbn [Nat.eqb same_outcome]. apply times_mk. intros i j Hi Hj.
    unfold sqdist. rewrite C1, C2. cbn [seq map]. rewrite G1, G2 by auto. unfold nsq. cbn. ring.
  Qed.
  Lemma colslice_cdist x x' y y' ii : pts x x' -> pts y y' -> mc x = mc y ->
    same_outcome (times (al * al)) (cdist_sq (colslice x ii) (colslice y ii)) (cdist_sq (colslice x' ii) (colslice y' ii)).
  Proof.
    intros (H1 & H2 & H3) (K1 & K2 & K3) Hc. unfold colslice. rewrite H1, H2, K1, K2, <- Hc. destruct (Nat.ltb_spec ii (mc x)) as [Hi|Hi].
    - apply (column_cdist _ _ _ _ (v ii)); cbn [mk mr mc]; auto; intros i Hi'.
      + rewrite !get_mk by lia. now apply H3.
      + rewrite !get_mk by lia. apply K3; lia.
    - unfold cdist_sq. cbn [mk mr mc Nat.eqb same_outcome]. apply times_mk. intros i j _ _. unfold sqdist. cbn. ring.
  Qed.
  Lemma rbf_scale l A A' : times (al * al) A A' -> rbf_of_sq (al * l) A' = rbf_of_sq l A.
  Proof.
    intros (H1 & H2 & H3). unfold rbf_of_sq, mmap1. rewrite H1, H2. apply mk_ext. intros i j Hi Hj. rewrite H3 by auto. cbn. f_equal. unfold Rdiv.
    replace (- (al * al * get A i j)) with ((al * al) * - get A i j) by ring.
    replace (2 * / 1 * (al * l) * (al * l)) with ((al * al) * (2 * / 1 * l * l)) by ring. rewrite Rinv_mult.
    set (Y := / (2 * / 1 * l * l)). replace (al * al * - get A i j * (/ (al * al) * Y)) with (al * al * / (al * al) * (- get A i j * Y)) by ring.
    rewrite Rinv_r by nra. ring.
  Qed.
  Lemma enumerate_ltimes l l' : ltimes al l l' -> Forall2 (fun a a' : nat * R => fst a' = fst a /\ snd a' = al * snd a) (enumerate l) (enumerate l').
  Proof.
    intro H. rewrite !(enumerate_map _ 0), <- (Forall2_length _ _ _ H). apply Forall2_seq. intros i Hi. split; [reflexivity|]. cbn [snd].
    apply (Forall2_nth' (fun a a' => a' = al * a) l l' 0 0 i H Hi).
  Qed.
  Lemma K_sep_aff x x' y y' ls ls' : pts x x' -> pts y y' -> mc x = mc y -> ltimes al ls ls' -> K_sep x' y' (LVec ls') = K_sep x y (LVec ls).
  Proof.
    intros Hx Hy Hc Hl. apply so_eq_inv. cbn [K_sep]. pose proof Hx as (X1 & _). pose proof Hy as (Y1 & _). rewrite X1, Y1.
    eapply so_rfold; [apply enumerate_ltimes, Hl|reflexivity|]. intros b b' [ii li] [ii' li'] _ (Q1 & Q2) <-. cbn [fst snd] in *. subst ii' li'.
    eapply so_bind; [apply (colslice_cdist x x' y y' ii); auto|]. intros t t' Ht. rewrite (rbf_scale li t t' Ht). now apply so_eq.
  Qed.
  Lemma Ksz_vec_aff Zp Zp' ls ls' x x' : pts Zp Zp' -> pts x x' -> ltimes al ls ls' -> Ksz_vec Zp' ls' x' = Ksz_vec Zp ls x.
  Proof.
    intros Hz Hx Hl. unfold Ksz_vec. pose proof Hx as (_ & X2 & _). rewrite X2. f_equal. apply so_eq_inv. eapply so_weaken.
    - apply (so_rmapM eq eq); [apply Forall2_refl; auto|]. intros ii _ _ <-. eapply so_bind; [apply (column_aff x x' ii Hx)|]. intros xi xi' (A1 & A2 & A3 & A4 & A5).
      eapply so_bind; [apply (column_aff Zp Zp' ii Hz)|]. intros zi zi' (B1 & B2 & B3 & B4 & B5).
      eapply so_bind; [apply (column_cdist xi xi' zi zi' (v ii)); auto; try congruence; intros; [apply A5|apply B5]; lia|]. intros c c' Hc.
      eapply so_bind; [apply (so_pyget _ ls ls' _ Hl)|]. intros li li' ->. cbn [same_outcome]. symmetry. now apply rbf_scale.
    - intros fs fs' H. induction H; congruence.
  Qed.
  Lemma diffs_aff x x' y y' ii : pts x x' -> pts y y' -> mc x = mc y -> same_outcome (times al) (diffs_at x y ii) (diffs_at x' y' ii).
  Proof.
    intros (H1 & H2 & H3) (K1 & K2 & K3) Hc. unfold diffs_at. rewrite H1, H2, K1, K2, <- Hc. rewrite bok_refl, bdim_refl. destruct (pyidx (mc x) ii) as [k|] eqn:J; [|reflexivity].
    apply pyidx_some in J. destruct J as (J & _). cbn [same_outcome]. apply times_mk. intros i j Hi Hj. rewrite !bidx_lt by auto. rewrite H3, K3 by lia. cbn. ring.
  Qed.
  Lemma lsq_aff ls ls' ii : ltimes al ls ls' -> same_outcome (fun a a' => a' = al * al * a) (lsq_at (LVec ls) ii) (lsq_at (LVec ls') ii).
  Proof. intro Hl. cbn [lsq_at]. eapply so_bind; [apply (so_pyget _ ls ls' ii Hl)|]. intros a a' ->. cbn. ring. Qed.
  Lemma grdx_aff x x' y y' ls ls' d : pts x x' -> pts y y' -> mc x = mc y -> ltimes al ls ls' ->
    same_outcome (times (/ al)) (grdx_K K_sep x y (LVec ls) d) (grdx_K K_sep x' y' (LVec ls') d).
  Proof.
    intros Hx Hy Hc Hl. unfold grdx_K. eapply so_bind; [apply (diffs_aff x x' y y'); auto|]. intros D D' HD.
    rewrite (K_sep_aff x x' y y' ls ls') by auto. eapply so_bind; [apply so_eq; reflexivity|]. intros k k' <-.
    eapply so_bind; [apply (times_bc_mul al 1 D D' k k HD), times_refl|]. intros p p' Hp.
    eapply so_bind; [apply (lsq_aff ls ls'); auto|]. intros l2 l2' ->. cbn [same_outcome]. unfold divs. apply (times_mmap1 (al * 1)); [|auto].
    intro t. cbn. unfold Rdiv. rewrite !Rinv_mult. set (Y := / l2). field. lra.
  Qed.
  Definition prep_rel (P P' : mat R * mat R * mat R * mat R) : Prop :=
    match P, P' with (a, b, c, s), (a', b', c', s') => a' = a /\ b' = b /\ c' = c /\ times (/ al) s s' /\ mc s = 1%nat end.
  Lemma prep_aff kern X X' Zp Zp' ls ls' d : kern <> "periodic" -> pts X X' -> pts Zp Zp' -> mc X = mc Zp -> ltimes al ls ls' ->
    same_outcome prep_rel (prep E (K_of kern) (grdx_of kern) X Zp (LVec ls) d) (prep E (K_of kern) (grdx_of kern) X' Zp' (LVec ls') d).
  Proof.
    intros Hk Hx Hz Hc Hl. unfold prep, K_of, grdx_of. destruct (String.eqb_spec kern "RBF") as [_|_].
    2:{ destruct (String.eqb_spec kern "periodic"); [contradiction|]. reflexivity. }
    rewrite (K_sep_aff X X' Zp Zp' ls ls'), (K_sep_aff Zp Zp' Zp Zp' ls ls') by auto. pose proof Hz as (Z1 & _). rewrite Z1.
    eapply so_bind; [apply so_eq; reflexivity|]. intros Kxz _ <-. eapply so_bind; [apply so_eq; reflexivity|]. intros Ks _ <-.
    eapply so_bind; [apply so_eq; reflexivity|]. intros Ksinv _ <-. eapply so_bind; [apply so_eq; reflexivity|]. intros A _ <-.
    eapply so_bind; [apply (grdx_aff X X' Zp Zp' ls ls' d); auto|]. intros G G' HG. cbn [same_outcome prep_rel]. repeat split; auto.
    - cbn. now destruct HG as (_ & -> & _).
    - intros i j Hi Hj. cbn [sum0 mopp mmap1 mk mr mc] in Hi, Hj. pose proof (times_mopp _ _ _ HG) as (G1 & G2 & G3).
      unfold sum0. rewrite !get_mk by (cbn [mopp mmap1 mk mc]; auto; destruct HG as (_ & -> & _); auto). unfold col. rewrite !nsum_seq, <- sumn_scal, G1. apply sumn_ext. intros. now apply G3.
  Qed.
  (** score_function_multid_seperate with the RBF kernel (or an unknown one: the same exception) *)
  Lemma score_aff kern C X X' Zp Zp' ls ls' d : kern <> "periodic" -> pts X X' -> pts Zp Zp' -> mc X = mc Zp -> ltimes al ls ls' ->
    same_outcome (ltimes (/ al)) (score_function_multid_seperate E X Zp C kern (LVec ls) d) (score_function_multid_seperate E X' Zp' C kern (LVec ls') d).
  Proof.
    intros Hk Hx Hz Hc Hl. unfold score_function_multid_seperate. pose proof Hz as (Z1 & _). rewrite Z1. eapply so_bind; [apply (prep_aff kern X X' Zp Zp' ls ls' d); auto|].
    intros [[[a b] c] s] [[[a' b'] c'] s'] (-> & -> & -> & Hs & Hs1). apply (so_rmap (fun A A' => times (/ al) A A' /\ mc A = mc s)).
    - unfold eval_at_samples. eapply so_bind; [apply so_eq; reflexivity|]. intros inn _ <-. eapply so_bind; [apply so_eq; reflexivity|]. intros m1 _ <-.
      eapply so_bind; [apply so_eq; reflexivity|]. intros m2 _ <-. rewrite <- (Rmult_1_l (/ al)). apply times_mmul_mc; auto using times_refl.
    - intros A A' (HA & HA1). apply times_flat; [exact HA|lia].
  Qed.
  Lemma score_fun_aff kern C X X' Zp Zp' ls ls' d : kern <> "periodic" -> pts X X' -> pts Zp Zp' -> mc X = mc Zp -> ltimes al ls ls' ->
    same_outcome (fun fn fn' => forall x x', pts x x' -> same_outcome (ltimes (/ al)) (fn x) (fn' x'))
      (score_function_multid_seperate_fun E X Zp C kern (LVec ls) d) (score_function_multid_seperate_fun E X' Zp' C kern (LVec ls') d).
  Proof.
    intros Hk Hx Hz Hc Hl. unfold score_function_multid_seperate_fun. pose proof Hz as (Z1 & _). rewrite Z1. eapply so_bind; [apply (prep_aff kern X X' Zp Zp' ls ls' d); auto|].
    intros [[[a b] c] s] [[[a' b'] c'] s'] (-> & -> & -> & Hs & Hs1). cbn [same_outcome]. intros x x' Hx'. apply (so_rmap (fun A A' => times (/ al) A A' /\ mc A = mc s)).
    - unfold eval_fun. eapply so_bind.
      { apply so_eq. symmetry. unfold Ksz_of. destruct (String.eqb kern "RBF"); [cbn [Ksz]; now apply Ksz_vec_aff|]. destruct (String.eqb_spec kern "periodic"); [contradiction|reflexivity]. }
      intros k _ <-. eapply so_bind; [apply so_eq; reflexivity|]. intros inn _ <-. eapply so_bind; [apply so_eq; reflexivity|]. intros m1 _ <-.
      eapply so_bind; [apply so_eq; reflexivity|]. intros m2 _ <-. rewrite <- (Rmult_1_l (/ al)). apply times_mmul_mc; auto using times_refl.
    - intros A A' (HA & HA1). apply times_flat; [exact HA|lia].
  Qed.
End Score.
