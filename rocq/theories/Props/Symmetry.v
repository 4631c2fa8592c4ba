(** C47: symmetries of the RBF score estimates. *)
From Coq Require Import String List ZArith Reals Lra Lia Bool Permutation FinFun.
From Verif Require Import Base.Num Base.Py Base.Arr Lib.ArrLemmas Model.Ext Model.Cdist Model.Score Model.ScoreTorch Lib.ScoreLemmas.
From Verif Require Import Spec.RealSpec Spec.Contracts Spec.KernelSpec Lib.RSum Lib.RMat Lib.Gauss Lib.KernelForms Lib.Estimator Lib.EstForms Props.Kernels Props.Estimators.
Import ListNotations.
Local Open Scope string_scope.
Local Open Scope R_scope.

(** p is a permutation of 0..n-1 *)
Definition permutes (n : nat) (p : nat -> nat) : Prop :=
  (forall i, (i < n)%nat -> (p i < n)%nat) /\ (forall i j, (i < n)%nat -> (j < n)%nat -> p i = p j -> i = j).
(** row i of X' is row p(i) of X *)
Definition rows_permuted (p : nat -> nat) (X X' : mat R) : Prop :=
  mr X' = mr X /\ mc X' = mc X /\ permutes (mr X) p /\ forall i d, (i < mr X)%nat -> (d < mc X)%nat -> get X' i d = get X (p i) d.
(** X' is X translated by the vector v *)
Definition translated (v : nat -> R) (X X' : mat R) : Prop :=
  mr X' = mr X /\ mc X' = mc X /\ forall i d, (i < mr X)%nat -> (d < mc X)%nat -> get X' i d = get X i d + v d.
(** X' is X scaled by al *)
Definition scaled (al : R) (X X' : mat R) : Prop :=
  mr X' = mr X /\ mc X' = mc X /\ forall i d, (i < mr X)%nat -> (d < mc X)%nat -> get X' i d = al * get X i d.
Definition scaled_length (al : R) (l : lscale R) : lscale R := match l with LScal v => LScal (al * v) | LVec ls => LVec (map (Rmult al) ls) end.

Lemma fold_perm (a b : list R) : Permutation a b -> fold_right Rplus 0 a = fold_right Rplus 0 b.
Proof. induction 1; cbn; lra. Qed.
Lemma sumn_fold n f : sumn n f = fold_right Rplus 0 (map f (seq 0 n)).
Proof. induction n; [reflexivity|]. rewrite seq_S, map_app. cbn. rewrite fold_plus_app, IHn. cbn. lra. Qed.
Lemma map_nodup n p : permutes n p -> NoDup (map p (seq 0 n)).
Proof.
  intros (H1 & H2). assert (G : forall m, (m <= n)%nat -> NoDup (map p (seq 0 m))).
  { induction m as [|m IH]; intro Hm; [constructor|]. rewrite seq_S, map_app. cbn [map]. apply NoDup_Add with (a := p m) (l := map p (seq 0 m)).
    - rewrite <- (app_nil_r (map p (seq 0 m))) at 1. apply Add_app.
    - split; [apply IH; lia|]. intro Hin. apply in_map_iff in Hin. destruct Hin as (j & E & Hj). apply in_seq in Hj. apply H2 in E; lia. }
  now apply G.
Qed.
Lemma sumn_perm n p f : permutes n p -> sumn n (fun i => f (p i)) = sumn n f.
Proof.
  intros H. rewrite !sumn_fold, <- (map_map p f). apply fold_perm, Permutation_map.
  apply NoDup_Permutation_bis; [now apply map_nodup|rewrite map_length; lia|].
  intros a Ha. apply in_map_iff in Ha. destruct Ha as (j & <- & Hj). apply in_seq in Hj. apply in_seq. destruct H as (H & _). specialize (H j). lia.
Qed.

Section Transfer.
  Context (N N' M D : nat) (l l' : nat -> R) (x x' z z' : nat -> nat -> R) (p : nat -> nat) (k c : R) (Hp : permutes M p).
  Context (HK : forall i j, (i < M)%nat -> (j < M)%nat -> gaussk D l' (z' i) (z' j) = gaussk D l (z (p i)) (z (p j))).
  Context (HG : forall i j, (i < M)%nat -> (j < M)%nat -> Agram N' D l' x' z' i j = Agram N D l x z (p i) (p j)).
  Lemma coeffs_transfer d a : (forall m, (m < M)%nat -> Sgrad N' D l' x' z' d m = k * Sgrad N D l x z d (p m)) ->
    coeffs N M D l x z d c a -> coeffs N' M D l' x' z' d c (fun m => k * a (p m)).
  Proof.
    intros HS Ha m Hm. rewrite HS by auto. replace (- (k * Sgrad N D l x z d (p m))) with (k * - Sgrad N D l x z d (p m)) by ring.
    rewrite <- (Ha (p m)) by now apply Hp. unfold mv. rewrite <- (sumn_perm M p (fun j => Nmat N D l x z c (p m) j * a j) Hp). rewrite <- sumn_scal. apply sumn_ext. intros j Hj.
    unfold Nmat, Kreg. rewrite HG, HK by auto. replace (delta m j) with (delta (p m) (p j)); [ring|].
    unfold delta. destruct (Nat.eqb_spec m j) as [->|Hne]; [now rewrite Nat.eqb_refl|]. destruct (Nat.eqb_spec (p m) (p j)) as [Heq|]; [|reflexivity].
    apply Hp in Heq; auto. contradiction.
  Qed.
  Lemma expansion_transfer a y y' : (forall m, (m < M)%nat -> gaussk D l' y' (z' m) = gaussk D l y (z (p m))) ->
    expansion M D l' z' (fun m => k * a (p m)) y' = k * expansion M D l z a y.
  Proof.
    intro H. unfold expansion. rewrite <- (sumn_perm M p (fun m => a m * gaussk D l y (z m)) Hp), <- sumn_scal. apply sumn_ext. intros m Hm. rewrite H by auto. ring.
  Qed.
End Transfer.

(** the three operations on the kernel and its derivative *)
Lemma gaussk_shift D l x y x' y' v : (forall d, (d < D)%nat -> x' d = x d + v d) -> (forall d, (d < D)%nat -> y' d = y d + v d) -> gaussk D l x' y' = gaussk D l x y.
Proof. intros H1 H2. unfold gaussk. f_equal. f_equal. apply sumn_ext. intros d Hd. rewrite H1, H2 by auto. now replace (x d + v d - (y d + v d)) with (x d - y d) by ring. Qed.
Lemma dgauss_shift D l x y x' y' v d : (d < D)%nat -> (forall d, (d < D)%nat -> x' d = x d + v d) -> (forall d, (d < D)%nat -> y' d = y d + v d) -> dgauss D l x' y' d = dgauss D l x y d.
Proof. intros Hd H1 H2. unfold dgauss. rewrite (gaussk_shift D l x y x' y' v) by auto. rewrite H1, H2 by auto. now replace (x d + v d - (y d + v d)) with (x d - y d) by ring. Qed.
Lemma dgauss_ext D l l' x x' y y' d : (d < D)%nat -> (forall d, (d < D)%nat -> l d = l' d) -> (forall d, (d < D)%nat -> x d = x' d) -> (forall d, (d < D)%nat -> y d = y' d) ->
  dgauss D l x y d = dgauss D l' x' y' d.
Proof. intros Hd H1 H2 H3. unfold dgauss. rewrite (gaussk_ext D l l' x x' y y') by auto. now rewrite H1, H2, H3. Qed.
Lemma gaussk_scale D l l' x y x' y' al : al <> 0 -> (forall d, (d < D)%nat -> l d <> 0) -> (forall d, (d < D)%nat -> l' d = al * l d) ->
  (forall d, (d < D)%nat -> x' d = al * x d) -> (forall d, (d < D)%nat -> y' d = al * y d) -> gaussk D l' x' y' = gaussk D l x y.
Proof.
  intros Ha Hl H0 H1 H2. unfold gaussk. f_equal. f_equal. apply sumn_ext. intros d Hd. rewrite H0, H1, H2 by auto. field. split; auto.
Qed.
Lemma dgauss_scale D l l' x y x' y' al d : (d < D)%nat -> al <> 0 -> (forall d, (d < D)%nat -> l d <> 0) -> (forall d, (d < D)%nat -> l' d = al * l d) ->
  (forall d, (d < D)%nat -> x' d = al * x d) -> (forall d, (d < D)%nat -> y' d = al * y d) -> dgauss D l' x' y' d = / al * dgauss D l x y d.
Proof.
  intros Hd Ha Hl H0 H1 H2. unfold dgauss. rewrite (gaussk_scale D l l' x y x' y' al) by auto. rewrite H0, H1, H2 by auto. field. split; auto.
Qed.
Lemma permutes_id n : permutes n (fun i => i).
Proof. split; auto. Qed.

(** ** The estimates *)
(** the outcomes of all estimators with one output dimension: at the samples, and as functions; and of the all-dims ones *)
Record outcomes := { on_samples : Z -> res (list R); as_function : Z -> res (mat R -> res (list R)); all_on_samples : res (mat R); all_as_function : res (mat R -> res (mat R)) }.
Inductive estimates {S} (E : Ext R S) (X Zp : mat R) (C : R) (l : lscale R) : outcomes -> Prop :=
| estimates_intro se fe : sample_estimator E se -> function_estimator E fe ->
    estimates E X Zp C l {| on_samples := se X Zp C l; as_function := fe X Zp C l;
      all_on_samples := score_function_multid_seperate_all_dims E X Zp C "RBF" l; all_as_function := score_function_multid_seperate_all_dims_fun E X Zp C "RBF" l |}.

(** the primed estimates at sample i are k times the others at sample q(i); the primed functions at y' are k times the others
    at y whenever y and y' are related *)
Definition related (D N : nat) (q : nat -> nat) (k : R) (pt : mat R -> mat R -> Prop) (o o' : outcomes) : Prop :=
  (forall d, (d < D)%nat -> let w := (Z.of_nat d + 1)%Z in
     (exists v, on_samples o w = Ok v /\ length v = N /\ on_samples o' w = Ok (map (fun i => k * nth (q i) v 0) (seq 0 N))) /\
     exists f f', as_function o w = Ok f /\ as_function o' w = Ok f' /\
       forall y y', mc y = D -> pt y y' -> exists v, f y = Ok v /\ length v = mr y /\ f' y' = Ok (map (fun t => k * t) v)) /\
  ((1 <= D)%nat -> (exists A, all_on_samples o = Ok A /\ mr A = N /\ mc A = D /\ all_on_samples o' = Ok (mk N D (fun i d => k * get A (q i) d))) /\
     exists F F', all_as_function o = Ok F /\ all_as_function o' = Ok F' /\
       forall y y', mc y = D -> pt y y' -> exists A, F y = Ok A /\ mr A = mr y /\ mc A = D /\ F' y' = Ok (mk (mr y) D (fun i d => k * get A i d))).

Section Sym.
  Context {S : Type} (E : Ext R S) (HI : inv_contract E).
  Context (D : nat) (X Zp X' Zp' : mat R) (l l' : lscale R) (C : R) (HA : estimator_args D X Zp l C) (HA' : estimator_args D X' Zp' l' C).
  Context (HN : mr X' = mr X) (HM : mr Zp' = mr Zp).
  Context (p q : nat -> nat) (k : R) (pt : mat R -> mat R -> Prop) (Hp : permutes (mr Zp) p) (Hq : permutes (mr X) q).
  Context (HK : forall i j, (i < mr Zp)%nat -> (j < mr Zp)%nat -> gaussk D (lsc l') (get Zp' i) (get Zp' j) = gaussk D (lsc l) (get Zp (p i)) (get Zp (p j))).
  Context (HX : forall i j, (i < mr X)%nat -> (j < mr Zp)%nat -> gaussk D (lsc l') (get X' i) (get Zp' j) = gaussk D (lsc l) (get X (q i)) (get Zp (p j))).
  Context (HG : forall d i j, (d < D)%nat -> (i < mr X)%nat -> (j < mr Zp)%nat -> dgauss D (lsc l') (get X' i) (get Zp' j) d = k * dgauss D (lsc l) (get X (q i)) (get Zp (p j)) d).
  Context (HP : forall y y', mc y = D -> pt y y' -> mc y' = D /\ mr y' = mr y /\ forall i m, (i < mr y)%nat -> (m < mr Zp)%nat -> gaussk D (lsc l') (get y' i) (get Zp' m) = gaussk D (lsc l) (get y i) (get Zp (p m))).

  Lemma gram_transfer i j : (i < mr Zp)%nat -> (j < mr Zp)%nat ->
    Agram (mr X) D (lsc l') (get X') (get Zp') i j = Agram (mr X) D (lsc l) (get X) (get Zp) (p i) (p j).
  Proof.
    intros Hi Hj. unfold Agram. rewrite <- (sumn_perm (mr X) q (fun n => gaussk D (lsc l) (get X n) (get Zp (p i)) * gaussk D (lsc l) (get X n) (get Zp (p j))) Hq).
    apply sumn_ext. intros n Hn. now rewrite !HX.
  Qed.
  Lemma sgrad_transfer d m : (d < D)%nat -> (m < mr Zp)%nat -> Sgrad (mr X) D (lsc l') (get X') (get Zp') d m = k * Sgrad (mr X) D (lsc l) (get X) (get Zp) d (p m).
  Proof.
    intros Hd Hm. unfold Sgrad. rewrite <- (sumn_perm (mr X) q (fun n => dgauss D (lsc l) (get X n) (get Zp (p m)) d) Hq), <- sumn_scal.
    apply sumn_ext. intros n Hn. now apply HG.
  Qed.
  Lemma solves_transfer d a : (d < D)%nat -> solves D X Zp l C d a -> solves D X' Zp' l' C d (fun m => k * a (p m)).
  Proof.
    intros Hd Ha. unfold solves. rewrite HN, HM. eapply coeffs_transfer; eauto; intros.
    - now apply gram_transfer.
    - now apply sgrad_transfer.
  Qed.
  Lemma values_transfer a y y' r : mr y' = mr y -> permutes (mr y) r ->
    (forall i m, (i < mr y)%nat -> (m < mr Zp)%nat -> gaussk D (lsc l') (get y' i) (get Zp' m) = gaussk D (lsc l) (get y (r i)) (get Zp (p m))) ->
    values (mr Zp') D (lsc l') (get Zp') (fun m => k * a (p m)) y' = map (fun i => k * nth (r i) (values (mr Zp) D (lsc l) (get Zp) a y) 0) (seq 0 (mr y)).
  Proof.
    intros Hr Hperm H. unfold values. rewrite Hr, HM. apply map_seq_ext. intros i Hi. rewrite nth_map_seq by now apply Hperm.
    apply expansion_transfer; auto.
  Qed.
  Lemma values_all_transfer a y y' r : mr y' = mr y -> permutes (mr y) r ->
    (forall i m, (i < mr y)%nat -> (m < mr Zp)%nat -> gaussk D (lsc l') (get y' i) (get Zp' m) = gaussk D (lsc l) (get y (r i)) (get Zp (p m))) ->
    values_all (mr Zp') D (lsc l') (get Zp') (fun d m => k * a d (p m)) y' = mk (mr y) D (fun i d => k * get (values_all (mr Zp) D (lsc l) (get Zp) a y) (r i) d).
  Proof.
    intros Hr Hperm H. unfold values_all. rewrite Hr, HM. apply mk_ext. intros i d Hi Hd. rewrite get_mk by (auto; now apply Hperm).
    apply expansion_transfer; auto.
  Qed.
  Lemma sym_main o o' : estimates E X Zp C l o -> estimates E X' Zp' C l' o' -> related D (mr X) q k pt o o'.
  Proof.
    intros [se fe Hse Hfe] [se' fe' Hse' Hfe']. split; cbn [on_samples as_function all_on_samples all_as_function].
    - intros d Hd. cbv zeta. rewrite (sample_sep E se D), (sample_sep E se' D), (fun_sep E fe D), (fun_sep E fe' D) by (auto; first [apply HA|apply HA']).
      pose proof HA as (_ & Hn & HC).
      destruct (coeffs_exist (mr X) (mr Zp) D (lsc l) (get X) (get Zp) Hn (C + 0.001) d ltac:(lra)) as (a & Ha).
      destruct (est_solves E HI D X Zp l C d a HA Hd Ha) as (H1 & f & F1 & F2).
      destruct (est_solves E HI D X' Zp' l' C d _ HA' Hd (solves_transfer d a Hd Ha)) as (H1' & f' & F1' & F2'). split.
      + eexists. split; [exact H1|]. split; [unfold values; now rewrite map_length, seq_length|]. rewrite H1'. f_equal. now apply values_transfer.
      + exists f, f'. split; [auto|]. split; [auto|]. intros y y' Hy Hpt. destruct (HP y y' Hy Hpt) as (C1 & R1 & G1). eexists. split; [now apply F2|].
        split; [unfold values; now rewrite map_length, seq_length|]. rewrite F2' by auto. f_equal. rewrite (values_transfer a y y' (fun i => i) R1 (permutes_id _) G1).
        unfold values at 2. rewrite map_map. apply map_seq_ext. intros i Hi. unfold values. now rewrite nth_map_seq by auto.
    - intro HD. pose proof HA as (_ & Hn & HC).
      set (a := fun d => solve (mr Zp) (Nmat (mr X) D (lsc l) (get X) (get Zp) (C + 0.001)) (fun m => - Sgrad (mr X) D (lsc l) (get X) (get Zp) d m)).
      assert (Ha : forall d, (d < D)%nat -> solves D X Zp l C d (a d)). { intros d Hd m Hm. apply solve_ok; auto. apply Nmat_pd; auto. lra. }
      destruct (est_all_solves E HI D X Zp l C a HA Ha) as (H1 & f & F1 & F2).
      destruct (est_all_solves E HI D X' Zp' l' C (fun d m => k * a d (p m)) HA') as (H1' & f' & F1' & F2').
      { intros d Hd. apply (solves_transfer d (a d)); auto. }
      split.
      + eexists. split; [exact H1|]. split; [reflexivity|]. split; [reflexivity|]. rewrite H1'. f_equal. now apply values_all_transfer.
      + exists f, f'. split; [auto|]. split; [auto|]. intros y y' Hy Hpt. destruct (HP y y' Hy Hpt) as (C1 & R1 & G1). eexists. split; [now apply F2|].
        split; [reflexivity|]. split; [reflexivity|]. rewrite F2' by auto. f_equal. now apply (values_all_transfer a y y' (fun i => i)).
  Qed.
End Sym.

Section Theorems.
  Context {S : Type} (E : Ext R S) (HI : inv_contract E).
  Context (D : nat) (X Zp : mat R) (l : lscale R) (C : R) (HA : estimator_args D X Zp l C).

  (** reordering the samples reorders the values at the samples and leaves the function unchanged *)
  Theorem C47_reordered_samples p X' o o' : rows_permuted p X X' -> estimates E X Zp C l o -> estimates E X' Zp C l o' ->
    related D (mr X) p 1 (fun y y' => y' = y) o o'.
  Proof.
    intros (R1 & R2 & Hp & Hg) Ho Ho'. pose proof HA as ((Hx & Hy & Hl) & Hn & HC).
    assert (HA' : estimator_args D X' Zp l C) by (split; [split; [congruence|auto]|auto]).
    assert (HR : forall i d, (i < mr X)%nat -> (d < D)%nat -> get X' i d = get X (p i) d) by (intros; apply Hg; lia).
    eapply (sym_main E HI D X Zp X' Zp l l C HA HA' R1 eq_refl (fun i => i) p 1 (fun y y' => y' = y)); auto using permutes_id.
    - intros. apply gaussk_ext; auto.
    - intros d i j Hd Hi Hj. rewrite Rmult_1_l. apply dgauss_ext; auto.
    - intros y y' Hyc ->. auto.
  Qed.
  (** reordering the inducing points changes nothing *)
  Theorem C47_reordered_inducing_points p Zp' o o' : rows_permuted p Zp Zp' -> estimates E X Zp C l o -> estimates E X Zp' C l o' ->
    related D (mr X) (fun i => i) 1 (fun y y' => y' = y) o o'.
  Proof.
    intros (R1 & R2 & Hp & Hg) Ho Ho'. pose proof HA as ((Hx & Hy & Hl) & Hn & HC).
    assert (HA' : estimator_args D X Zp' l C) by (split; [split; [auto|split; [congruence|auto]]|auto]).
    assert (HR : forall i d, (i < mr Zp)%nat -> (d < D)%nat -> get Zp' i d = get Zp (p i) d) by (intros; apply Hg; lia).
    eapply (sym_main E HI D X Zp X Zp' l l C HA HA' eq_refl R1 p (fun i => i) 1 (fun y y' => y' = y)); auto using permutes_id.
    - intros. apply gaussk_ext; auto.
    - intros. apply gaussk_ext; auto.
    - intros d i j Hd Hi Hj. rewrite Rmult_1_l. apply dgauss_ext; auto.
    - intros y y' Hyc ->. split; [auto|]. split; [auto|]. intros. apply gaussk_ext; auto.
  Qed.
  (** translating everything by the same vector changes nothing *)
  Theorem C47_translation v X' Zp' o o' : translated v X X' -> translated v Zp Zp' -> estimates E X Zp C l o -> estimates E X' Zp' C l o' ->
    related D (mr X) (fun i => i) 1 (translated v) o o'.
  Proof.
    intros (R1 & R2 & Hg) (R3 & R4 & Hh) Ho Ho'. pose proof HA as ((Hx & Hy & Hl) & Hn & HC).
    assert (HA' : estimator_args D X' Zp' l C) by (split; [split; [congruence|split; [congruence|auto]]|auto]).
    assert (HR : forall i, (i < mr X)%nat -> forall d, (d < D)%nat -> get X' i d = get X i d + v d) by (intros; apply Hg; lia).
    assert (HS : forall i, (i < mr Zp)%nat -> forall d, (d < D)%nat -> get Zp' i d = get Zp i d + v d) by (intros; apply Hh; lia).
    eapply (sym_main E HI D X Zp X' Zp' l l C HA HA' R1 R3 (fun i => i) (fun i => i) 1 (translated v)); auto using permutes_id.
    - intros. apply (gaussk_shift D _ _ _ _ _ v); auto.
    - intros. apply (gaussk_shift D _ _ _ _ _ v); auto.
    - intros d i j Hd Hi Hj. rewrite Rmult_1_l. apply (dgauss_shift D _ _ _ _ _ v); auto.
    - intros y y' Hyc (Y1 & Y2 & Y3). split; [congruence|]. split; [auto|]. intros i m Hi Hm. apply (gaussk_shift D _ _ _ _ _ v); auto. intros. apply Y3; lia.
  Qed.
  (** scaling space and lengthscales by al divides the estimate by al *)
  Theorem C47_scaling al X' Zp' o o' : al <> 0 -> scaled al X X' -> scaled al Zp Zp' -> estimates E X Zp C l o -> estimates E X' Zp' C (scaled_length al l) o' ->
    related D (mr X) (fun i => i) (/ al) (scaled al) o o'.
  Proof.
    intros Hal (R1 & R2 & Hg) (R3 & R4 & Hh) Ho Ho'. pose proof HA as ((Hx & Hy & Hl) & Hn & HC).
    assert (HL : forall d, (d < D)%nat -> lsc (scaled_length al l) d = al * lsc l d).
    { intros d Hd. destruct l as [v|ls]; [reflexivity|]. cbn in *. rewrite (nth_indep _ 0 (al * 0)) by (rewrite map_length; lia). apply map_nth. }
    assert (HA' : estimator_args D X' Zp' (scaled_length al l) C).
    { split; [split; [congruence|split; [congruence|]]|split; [|auto]].
      - destruct l as [v|ls]; [exact I|]. cbn in *. now rewrite map_length.
      - intros d Hd. change (lsc (scaled_length al l) d <> 0). rewrite HL by auto. apply Rmult_integral_contrapositive. split; [auto|now apply Hn]. }
    assert (HR : forall i, (i < mr X)%nat -> forall d, (d < D)%nat -> get X' i d = al * get X i d) by (intros; apply Hg; lia).
    assert (HS : forall i, (i < mr Zp)%nat -> forall d, (d < D)%nat -> get Zp' i d = al * get Zp i d) by (intros; apply Hh; lia).
    eapply (sym_main E HI D X Zp X' Zp' l (scaled_length al l) C HA HA' R1 R3 (fun i => i) (fun i => i) (/ al) (scaled al)); auto using permutes_id.
    - intros. apply (gaussk_scale D _ _ _ _ _ _ al); auto.
    - intros. apply (gaussk_scale D _ _ _ _ _ _ al); auto.
    - intros d i j Hd Hi Hj. apply (dgauss_scale D _ _ _ _ _ _ al); auto.
    - intros y y' Hyc (Y1 & Y2 & Y3). split; [congruence|]. split; [auto|]. intros i m Hi Hm. apply (gaussk_scale D _ _ _ _ _ _ al); auto. intros. apply Y3; lia.
  Qed.
End Theorems.
