(** The array operations of the model commute with a change of unit and origin (no modelling content). *)
From Coq Require Import String List ZArith Reals Lra Lia Bool.
From Verif Require Import Base.Num Base.Py Base.Arr Lib.ArrLemmas Model.Ext Model.Cdist Model.Score Spec.FlowSpec Spec.RealSpec Spec.AffineSpec Lib.RSum Lib.RBase Lib.Sim.
Import ListNotations.
Local Open Scope R_scope.

Lemma bidx_bound_l a b i : bok a b = true -> (i < bdim a b)%nat -> (bidx a i < a)%nat.
Proof. intros H Hi. apply bok_spec in H. unfold bdim, bidx in *. destruct (Nat.eqb_spec a 1); lia. Qed.
Lemma bidx_bound_r a b i : bok a b = true -> (i < bdim a b)%nat -> (bidx b i < b)%nat.
Proof. intros H Hi. apply bok_spec in H. unfold bdim, bidx in *. destruct (Nat.eqb_spec a 1), (Nat.eqb_spec b 1); lia. Qed.
Lemma bidx_bound_a n r i : (n = r \/ n = 1)%nat -> (i < r)%nat -> (bidx n i < n)%nat.
Proof. intros H Hi. unfold bidx. destruct (Nat.eqb_spec n 1); lia. Qed.

(** elementwise relations *)
Definition emap (P : nat -> nat -> R -> R -> Prop) (A A' : mat R) : Prop :=
  mr A' = mr A /\ mc A' = mc A /\ forall i j, (i < mr A)%nat -> (j < mc A)%nat -> P i j (get A i j) (get A' i j).
Lemma so_bc2 (P Q O : nat -> nat -> R -> R -> Prop) op op' A A' B B' : emap P A A' -> emap Q B B' ->
  (forall i j a a' b b', (i < bdim (mr A) (mr B))%nat -> (j < bdim (mc A) (mc B))%nat -> bok (mr A) (mr B) = true -> bok (mc A) (mc B) = true ->
     P (bidx (mr A) i) (bidx (mc A) j) a a' -> Q (bidx (mr B) i) (bidx (mc B) j) b b' -> O i j (op a b) (op' a' b')) ->
  same_outcome (fun C C' => emap O C C' /\ mr C = bdim (mr A) (mr B) /\ mc C = bdim (mc A) (mc B) /\ wf C /\ wf C') (bc2 op A B) (bc2 op' A' B').
Proof.
  intros (A1 & A2 & A3) (B1 & B2 & B3) K. unfold bc2. rewrite A1, A2, B1, B2. destruct (bok (mr A) (mr B)) eqn:E1, (bok (mc A) (mc B)) eqn:E2; cbn [andb]; try reflexivity.
  cbn [same_outcome]. split; [|split; [reflexivity|split; [reflexivity|split; apply wf_mk]]]. split; [reflexivity|]. split; [reflexivity|]. intros i j Hi Hj. cbn [mk mr mc] in Hi, Hj.
  rewrite !get_mk by auto. unfold bget. rewrite A1, A2, B1, B2.
  apply K; auto; [apply A3|apply B3]; eauto using bidx_bound_l, bidx_bound_r.
Qed.

Lemma times_emap k A A' : times k A A' <-> emap (fun _ _ a a' => a' = k * a) A A'.
Proof. reflexivity. Qed.
Lemma times_mk k r c f f' : (forall i j, (i < r)%nat -> (j < c)%nat -> f' i j = k * f i j) -> times k (mk r c f) (mk r c f').
Proof. intro H. split; [reflexivity|]. split; [reflexivity|]. intros i j Hi Hj. cbn [mk mr mc] in Hi, Hj. rewrite !get_mk by auto. auto. Qed.
Lemma times_eq A A' : wf A -> wf A' -> times 1 A A' -> A' = A.
Proof. intros W W' (H1 & H2 & H3). symmetry. apply wf_eq; auto. intros. rewrite H3 by auto. ring. Qed.
Lemma times_refl A : times 1 A A. Proof. split; [auto|]. split; [auto|]. intros; ring. Qed.
Lemma times_bc_mul a b A A' B B' : times a A A' -> times b B B' -> same_outcome (times (a * b)) (bc2 nmul A B) (bc2 nmul A' B').
Proof.
  intros HA HB. eapply so_weaken; [apply (so_bc2 (fun _ _ x x' => x' = a * x) (fun _ _ x x' => x' = b * x) (fun _ _ x x' => x' = (a * b) * x) nmul nmul A A' B B' HA HB)|].
  - intros. subst. cbn. ring.
  - intros C C' (H & _). exact H.
Qed.
Lemma times_bc_add a A A' B B' : times a A A' -> times a B B' -> same_outcome (times a) (bc2 nadd A B) (bc2 nadd A' B').
Proof.
  intros HA HB. eapply so_weaken; [apply (so_bc2 (fun _ _ x x' => x' = a * x) (fun _ _ x x' => x' = a * x) (fun _ _ x x' => x' = a * x) nadd nadd A A' B B' HA HB)|].
  - intros. subst. cbn. ring.
  - intros C C' (H & _). exact H.
Qed.
Lemma times_bc_sub a A A' B B' : times a A A' -> times a B B' -> same_outcome (times a) (bc2 nsub A B) (bc2 nsub A' B').
Proof.
  intros HA HB. eapply so_weaken; [apply (so_bc2 (fun _ _ x x' => x' = a * x) (fun _ _ x x' => x' = a * x) (fun _ _ x x' => x' = a * x) nsub nsub A A' B B' HA HB)|].
  - intros. subst. cbn. ring.
  - intros C C' (H & _). exact H.
Qed.
Lemma times_mmap1 k k' f f' A A' : (forall x, f' (k * x) = k' * f x) -> times k A A' -> times k' (mmap1 f A) (mmap1 f' A').
Proof. intros H (H1 & H2 & H3). unfold mmap1. rewrite H1, H2. apply times_mk. intros i j Hi Hj. now rewrite H3. Qed.
Lemma times_smul k b A A' : times k A A' -> times k (smul b A) (smul b A').
Proof. apply times_mmap1. intro. cbn. ring. Qed.
Lemma times_muls k b A A' : times k A A' -> times k (muls A b) (muls A' b).
Proof. apply times_mmap1. intro. cbn. ring. Qed.
Lemma times_mopp k A A' : times k A A' -> times k (mopp A) (mopp A').
Proof. apply times_mmap1. intro. cbn. ring. Qed.
Lemma times_msq k A A' : times k A A' -> times (k * k) (msq A) (msq A').
Proof. apply times_mmap1. intro. unfold nsq. cbn. ring. Qed.
Lemma times_mT k A A' : times k A A' -> times k (mT A) (mT A').
Proof. intros (H1 & H2 & H3). unfold mT. rewrite H1, H2. apply times_mk. intros. now apply H3. Qed.
Lemma times_mmul a b A A' B B' : times a A A' -> times b B B' -> same_outcome (times (a * b)) (mmul A B) (mmul A' B').
Proof.
  intros (A1 & A2 & A3) (B1 & B2 & B3). unfold mmul. rewrite A1, A2, B1, B2. destruct (Nat.eqb_spec (mc A) (mr B)) as [E|]; [|reflexivity].
  cbn [same_outcome]. apply times_mk. intros i j Hi Hj. rewrite !nsum_seq, <- sumn_scal. apply sumn_ext. intros l Hl. rewrite A3, B3 by lia. cbn. ring.
Qed.
Lemma times_ext k k' A A' : k = k' -> times k A A' -> times k' A A'. Proof. now intros <-. Qed.

(** lists of k times the numbers *)
Definition ltimes (k : R) : list R -> list R -> Prop := Forall2 (fun a a' => a' = k * a).
Lemma ltimes_vec k l l' : ltimes k l l' -> times k (vec l) (vec l').
Proof.
  intro H. unfold vec. rewrite <- (Forall2_length _ _ _ H). apply times_mk. intros i j Hi Hj.
  apply (Forall2_nth' (fun a a' => a' = k * a) l l' 0 0 j H Hj).
Qed.
Lemma times_col k A A' j : times k A A' -> (j < mc A)%nat -> ltimes k (col A j) (col A' j).
Proof. intros (H1 & H2 & H3) Hj. unfold col. rewrite H1. apply Forall2_seq. intros. now apply H3. Qed.
Lemma times_flat k A A' : times k A A' -> (0 < mc A)%nat -> ltimes k (flat A) (flat A').
Proof. apply times_col. Qed.

Lemma lin_setrow k A A' i r r' : times k A A' -> ltimes k r r' -> same_outcome (fun C C' => times k C C' /\ mr C = mr A /\ mc C = mc A) (setrow A i (vec r)) (setrow A' i (vec r')).
Proof.
  intros (H1 & H2 & H3) Hr. apply ltimes_vec in Hr. destruct Hr as (V1 & V2 & V3). unfold setrow. rewrite H1. destruct (pyidx (mr A) i) as [d|]; [|reflexivity].
  unfold assign_shape. rewrite V1, V2, H2. destruct (((mr (vec r) =? 1)%nat || (mr (vec r) =? 1)%nat) && ((mc (vec r) =? mc A)%nat || (mc (vec r) =? 1)%nat)) eqn:C; [|reflexivity].
  apply andb_prop in C. destruct C as (C1 & C2). apply orb_prop in C2. rewrite !Nat.eqb_eq in C2. cbn [rbind same_outcome]. split; [|split; reflexivity].
  apply times_mk. intros a b Ha Hb. destruct (a =? d)%nat; [|now apply H3]. rewrite !get_mk by lia. unfold bget. rewrite V1, V2. apply V3.
  - cbn. lia.
  - eapply bidx_bound_a; eauto.
Qed.

(** *** ensembles *)
Section Ens.
  Context (al : R) (v : nat -> R) (Hal : 0 < al).
  Notation ens := (ensemble_image al v).
  Notation pts := (points_image al v).

  Lemma ens_mT x x' : ens x x' -> pts (mT x) (mT x').
  Proof.
    intros (H1 & H2 & H3). split; [exact H2|]. split; [exact H1|]. intros n d Hn Hd. cbn [mT mk mr mc] in Hn, Hd.
    rewrite !get_mT by lia. now apply H3.
  Qed.
  (** minimum and maximum of a row *)
  Definition affl (b : R) : list R -> list R -> Prop := Forall2 (fun a a' => a' = al * a + b).
  Lemma ens_row x x' d : ens x x' -> (d < mr x)%nat -> affl (v d) (row x d) (row x' d).
  Proof. intros (H1 & H2 & H3) Hd. unfold row. rewrite H2. apply Forall2_seq. intros. now apply H3. Qed.
  Lemma Rmin_aff b x y : Rmin (al * x + b) (al * y + b) = al * Rmin x y + b.
  Proof. unfold Rmin. destruct (Rle_dec x y), (Rle_dec (al * x + b) (al * y + b)); try lra; nra. Qed.
  Lemma Rmax_aff b x y : Rmax (al * x + b) (al * y + b) = al * Rmax x y + b.
  Proof. unfold Rmax. destruct (Rle_dec x y), (Rle_dec (al * x + b) (al * y + b)); try lra; nra. Qed.
  Lemma lmin_aff b l l' : affl b l l' -> same_outcome (fun a a' => a' = al * a + b) (lmin l) (lmin l').
  Proof.
    intro H. destruct H as [|x x' l l' -> H]; [reflexivity|]. cbn [lmin same_outcome]. cbn. revert x. induction H as [|y y' l l' -> H IH]; intro x; [reflexivity|].
    cbn [fold_left]. rewrite Rmin_aff. apply IH.
  Qed.
  Lemma lmax_aff b l l' : affl b l l' -> same_outcome (fun a a' => a' = al * a + b) (lmax l) (lmax l').
  Proof.
    intro H. destruct H as [|x x' l l' -> H]; [reflexivity|]. cbn [lmax same_outcome]. cbn. revert x. induction H as [|y y' l l' -> H IH]; intro x; [reflexivity|].
    cbn [fold_left]. rewrite Rmax_aff. apply IH.
  Qed.
  (** mean and standard deviation *)
  Lemma nsum_aff b l l' : affl b l l' -> nsum l' = al * nsum l + INR (List.length l) * b.
  Proof.
    induction 1 as [|x x' l l' -> H IH]; [cbn; ring|]. change (nsum (?a :: ?b)) with (a + nsum b). cbn [List.length]. rewrite S_INR.
    change (al * x + b + nsum l' = al * (x + nsum l) + (INR (List.length l) + 1) * b). rewrite IH. ring.
  Qed.
  Lemma nmean_aff b l l' : affl b l l' -> l <> [] -> nmean l' = al * nmean l + b.
  Proof.
    intros H Hn. unfold nmean. rewrite !nofnat_R, <- (Forall2_length _ _ _ H), (nsum_aff b l l' H). cbn. field. apply not_0_INR. destruct l; [congruence|cbn; lia].
  Qed.
  Lemma nstd_aff b l l' : affl b l l' -> nstd l' = al * nstd l.
  Proof.
    intro H. destruct l as [|x l]. { inversion H; subst. unfold nstd, ssd. cbn. unfold Rdiv. rewrite Rmult_0_l, sqrt_0. ring. }
    pose proof (nmean_aff b _ _ H ltac:(discriminate)) as Hm. unfold nstd. cbn [nsqrt ndiv ROps].
    replace (ssd l') with (al * al * ssd (x :: l)).
    - rewrite !nofnat_R, <- (Forall2_length _ _ _ H). unfold Rdiv. rewrite Rmult_assoc, sqrt_mult_alt by nra. now rewrite sqrt_square by lra.
    - unfold ssd. rewrite Hm. set (m := nmean (x :: l)). clearbody m. clear Hm. induction H as [|y y' u u' -> H IH]; [cbn; ring|].
      cbn [map]. change (nsum (?a :: ?b)) with (a + nsum b).
      change (al * al * (nsq (nsub y m) + nsum (map (fun x => nsq (nsub x m)) u)) = nsq (nsub (al * y + b) (al * m + b)) + nsum (map (fun x => nsq (nsub x (al * m + b))) u')).
      rewrite <- IH. unfold nsq. cbn. ring.
  Qed.
  Lemma std1_aff x x' : ens x x' -> ltimes al (std1 x) (std1 x').
  Proof.
    intros H. pose proof H as (H1 & _). unfold std1. rewrite H1. apply Forall2_seq. intros i Hi. eapply nstd_aff. now apply ens_row.
  Qed.

  (** positions after broadcasting: dim is the number of coordinates *)
  Context (dim : nat).
  Definition posr (A A' : mat R) : Prop :=
    emap (fun i _ a a' => a' = al * a + v (bidx dim i)) A A' /\ (dim = 1%nat \/ mr A = dim).
  Definition posc (A A' : mat R) : Prop :=
    emap (fun _ j a a' => a' = al * a + v (bidx dim j)) A A' /\ (dim = 1%nat \/ mc A = dim).
  Lemma bidx_bidx a b i : (i < bdim a b)%nat -> bok a b = true -> (dim = 1%nat \/ a = dim) -> bidx dim (bidx a i) = bidx dim i.
  Proof. intros Hi Hb H. apply bok_spec in Hb. unfold bidx, bdim in *. destruct (Nat.eqb_spec dim 1), (Nat.eqb_spec a 1); auto; lia. Qed.
  Lemma bdim_dim a b : bok a b = true -> (dim = 1%nat \/ a = dim) -> (dim = 1%nat \/ bdim a b = dim).
  Proof. intros Hb [H|H]; [now left|]. subst. unfold bdim. destruct (Nat.eqb_spec dim 1); auto. Qed.
  Lemma bc2_bok {op : R -> R -> R} {A B C} : bc2 op A B = Ok C -> bok (mr A) (mr B) = true /\ bok (mc A) (mc B) = true.
  Proof. unfold bc2. destruct (bok (mr A) (mr B)), (bok (mc A) (mc B)); cbn; auto; discriminate. Qed.
  Lemma so_with {A B} (P : A -> B -> Prop) (Q : A -> B -> Prop) r r' : same_outcome P r r' -> (forall a b, r = Ok a -> r' = Ok b -> P a b -> Q a b) -> same_outcome Q r r'.
  Proof. destruct r, r'; cbn; auto. Qed.
  Lemma posr_add A A' B B' : posr A A' -> times al B B' -> same_outcome posr (bc2 nadd A B) (bc2 nadd A' B').
  Proof.
    intros (HA & HD) HB. eapply so_with.
    - apply (so_bc2 (fun i _ a a' => a' = al * a + v (bidx dim i)) (fun _ _ x x' => x' = al * x) (fun i _ a a' => a' = al * a + v (bidx dim i)) nadd nadd A A' B B' HA HB).
      intros i j a a' b b' Hi Hj K1 K2 -> ->. rewrite (bidx_bidx (mr A) (mr B) i) by auto. cbn. ring.
    - intros C C' E _ (H & H1 & _). split; [exact H|]. rewrite H1. apply bdim_dim; [|exact HD]. now apply bc2_bok in E.
  Qed.
  Lemma posr_sub A A' B B' : posr A A' -> times al B B' -> same_outcome posr (bc2 nsub A B) (bc2 nsub A' B').
  Proof.
    intros (HA & HD) HB. eapply so_with.
    - apply (so_bc2 (fun i _ a a' => a' = al * a + v (bidx dim i)) (fun _ _ x x' => x' = al * x) (fun i _ a a' => a' = al * a + v (bidx dim i)) nsub nsub A A' B B' HA HB).
      intros i j a a' b b' Hi Hj K1 K2 -> ->. rewrite (bidx_bidx (mr A) (mr B) i) by auto. cbn. ring.
    - intros C C' E _ (H & H1 & _). split; [exact H|]. rewrite H1. apply bdim_dim; [|exact HD]. now apply bc2_bok in E.
  Qed.
  Lemma posc_add A A' B B' : posc A A' -> times al B B' -> same_outcome posc (bc2 nadd A B) (bc2 nadd A' B').
  Proof.
    intros (HA & HD) HB. eapply so_with.
    - apply (so_bc2 (fun _ i a a' => a' = al * a + v (bidx dim i)) (fun _ _ x x' => x' = al * x) (fun _ i a a' => a' = al * a + v (bidx dim i)) nadd nadd A A' B B' HA HB).
      intros i j a a' b b' Hi Hj K1 K2 -> ->. rewrite (bidx_bidx (mc A) (mc B) j) by auto. cbn. ring.
    - intros C C' E _ (H & _ & H1 & _). split; [exact H|]. rewrite H1. apply bdim_dim; [|exact HD]. now apply bc2_bok in E.
  Qed.
  Lemma ens_posr x x' : ens x x' -> mr x = dim -> posr x x'.
  Proof.
    intros (H1 & H2 & H3) Hd. split; [|now right]. split; [auto|]. split; [auto|]. intros i j Hi Hj. rewrite bidx_lt by lia. now apply H3.
  Qed.
  Lemma pts_posc x x' : pts x x' -> mc x = dim -> posc x x'.
  Proof.
    intros (H1 & H2 & H3) Hd. split; [|now right]. split; [auto|]. split; [auto|]. intros i j Hi Hj. rewrite bidx_lt by lia. now apply H3.
  Qed.
  Lemma posr_assign N A A' : posr A A' -> same_outcome (fun C C' => ens C C' /\ mr C = dim /\ mc C = N /\ wf C /\ wf C') (assign_shape dim N A) (assign_shape dim N A').
  Proof.
    intros ((H1 & H2 & H3) & HD). unfold assign_shape. rewrite H1, H2.
    destruct (((mr A =? dim)%nat || (mr A =? 1)%nat) && ((mc A =? N)%nat || (mc A =? 1)%nat)) eqn:C; [|reflexivity].
    apply andb_prop in C. destruct C as (C1 & C2). apply orb_prop in C1, C2. rewrite !Nat.eqb_eq in *. cbn [same_outcome].
    split; [|split; [reflexivity|split; [reflexivity|split; apply wf_mk]]]. split; [reflexivity|]. split; [reflexivity|]. intros d n Hd Hn. cbn [mk mr mc] in Hd, Hn.
    rewrite !get_mk by auto. unfold bget. rewrite H1, H2.
    rewrite H3 by eauto using bidx_bound_a. f_equal. f_equal. unfold bidx. destruct (Nat.eqb_spec dim 1), (Nat.eqb_spec (mr A) 1); lia.
  Qed.
  Lemma posc_assign A A' : posc A A' -> same_outcome (fun C C' => forall d, (d < dim)%nat -> get C' 0 d = al * get C 0 d + v d) (assign_shape 1 dim A) (assign_shape 1 dim A').
  Proof.
    intros ((H1 & H2 & H3) & HD). unfold assign_shape. rewrite H1, H2.
    destruct (((mr A =? 1)%nat || (mr A =? 1)%nat) && ((mc A =? dim)%nat || (mc A =? 1)%nat)) eqn:C; [|reflexivity].
    apply andb_prop in C. destruct C as (C1 & C2). apply orb_prop in C1, C2. rewrite !Nat.eqb_eq in *. cbn [same_outcome]. intros d Hd.
    rewrite !get_mk by lia. unfold bget. rewrite H1, H2. rewrite H3 by (eapply bidx_bound_a; eauto; lia). f_equal. f_equal.
    unfold bidx. destruct (Nat.eqb_spec dim 1), (Nat.eqb_spec (mc A) 1); lia.
  Qed.

  (** flows: the entries (d, i, t) with W d i t have been written in both *)
  Definition arel (W : nat -> nat -> nat -> Prop) (A A' : arr3 R) : Prop :=
    wf3 A /\ wf3 A' /\ a_d A' = a_d A /\ a_n A' = a_n A /\ a_k A' = a_k A /\
    forall d i t, (d < a_d A)%nat -> (i < a_n A)%nat -> (t < a_k A)%nat -> W d i t -> get3 A' d i t = al * get3 A d i t + v d.
  Lemma arel_weaken (W W' : nat -> nat -> nat -> Prop) A A' : arel W A A' ->
    (forall d i t, (d < a_d A)%nat -> (i < a_n A)%nat -> (t < a_k A)%nat -> W' d i t -> W d i t) -> arel W' A A'.
  Proof. intros (H1 & H2 & H3 & H4 & H5 & H6) K. repeat split; auto; try apply H1; try apply H2; auto. Qed.
  Lemma arel_getsl W A A' t : arel W A A' -> (forall j d i, pyidx (a_k A) t = Some j -> (d < a_d A)%nat -> (i < a_n A)%nat -> W d i j) ->
    same_outcome (fun x x' => ens x x' /\ wf x /\ wf x' /\ mr x = a_d A /\ mc x = a_n A) (getsl A t) (getsl A' t).
  Proof.
    intros (W1 & W2 & H3 & H4 & H5 & H6) K. unfold getsl. rewrite H5. destruct (pyidx (a_k A) t) as [j|] eqn:J; [|reflexivity]. pose proof J as J'. apply pyidx_some in J'. destruct J' as (J' & _).
    cbn [same_outcome]. destruct W1 as (_ & W1), W2 as (_ & W2). destruct (W1 j J') as (Q1 & Q2 & Q3). destruct (W2 j ltac:(lia)) as (Q1' & Q2' & Q3').
    split; [|auto]. split; [congruence|]. split; [congruence|]. intros d n Hd Hn. apply H6; try lia. apply (K j); auto; lia.
  Qed.
  Lemma arel_set W A A' j m m' : arel W A A' -> (j < a_k A)%nat -> wf m -> wf m' -> mr m = a_d A -> mc m = a_n A -> mr m' = a_d A -> mc m' = a_n A ->
    forall W' : nat -> nat -> nat -> Prop, (forall d i, (d < a_d A)%nat -> (i < a_n A)%nat -> W' d i j -> get m' d i = al * get m d i + v d) ->
    (forall d i t, t <> j -> (d < a_d A)%nat -> (i < a_n A)%nat -> (t < a_k A)%nat -> W' d i t -> W d i t) ->
    arel W' (setslice A j m) (setslice A' j m').
  Proof.
    intros (W1 & W2 & H3 & H4 & H5 & H6) Hj M1 M2 M3 M4 M5 M6 W' K1 K2. split; [now apply wf3_set|]. split; [apply wf3_set; auto; lia|].
    cbn [setslice a_d a_n a_k]. split; [auto|]. split; [auto|]. split; [auto|]. intros d i t Hd Hi Ht Hw. unfold get3.
    fold (setslice A j m) (setslice A' j m'). destruct (Nat.eq_dec t j) as [->|Hne].
    - rewrite !slice_set_same by (auto; lia). auto.
    - rewrite !slice_set_other by auto. apply (H6 d i t); auto.
  Qed.
  Lemma arel_setsl W (W' : nat -> nat -> nat -> Prop) A A' t y y' : arel W A A' -> a_d A = dim -> posr y y' ->
    (forall j d i s, pyidx (a_k A) t = Some j -> s <> j -> (d < a_d A)%nat -> (i < a_n A)%nat -> (s < a_k A)%nat -> W' d i s -> W d i s) ->
    same_outcome (fun B B' => arel W' B B' /\ a_d B = a_d A /\ a_n B = a_n A /\ a_k B = a_k A) (setsl A t y) (setsl A' t y').
  Proof.
    intros HA HD Hy K. pose proof HA as (W1 & W2 & H3 & H4 & H5 & H6). unfold setsl. rewrite H3, H4, H5, HD. destruct (pyidx (a_k A) t) as [j|] eqn:J; [|reflexivity].
    apply pyidx_some in J. destruct J as (J & _). eapply so_bind; [apply (posr_assign (a_n A) y y' Hy)|]. intros m m' (E & Q1 & Q2 & Q3 & Q4).
    cbn [same_outcome]. split; [|auto]. rewrite <- HD. replace (Arr3 (a_d A) (a_n A) (a_k A) (upd (a_s A') j m')) with (setslice A' j m') by (unfold setslice; now rewrite H3, H4, H5).
    destruct E as (E1 & E2 & E3). apply (arel_set W A A' j m m'); auto; try congruence.
    - intros d i Hd Hi _. apply E3; congruence.
    - intros d i s Hs Hd Hi Ht Hw. apply (K j d i s eq_refl); auto.
  Qed.
  Lemma arel_setrow3 W (W' : nat -> nat -> nat -> Prop) A A' d t y y' : arel W A A' -> ((d < a_d A)%nat -> y' = al * y + v d) ->
    (forall j e i s, pyidx (a_k A) t = Some j -> ~ (s = j /\ e = d) -> (e < a_d A)%nat -> (i < a_n A)%nat -> (s < a_k A)%nat -> W' e i s -> W e i s) ->
    same_outcome (fun B B' => arel W' B B' /\ a_d B = a_d A /\ a_n B = a_n A /\ a_k B = a_k A) (setrow3 A (Z.of_nat d) t y) (setrow3 A' (Z.of_nat d) t y').
  Proof.
    intros HA Hy K. pose proof HA as (W1 & W2 & H3 & H4 & H5 & H6). unfold setrow3. rewrite H3, H4, H5. destruct (Nat.lt_ge_cases d (a_d A)) as [Hd|Hd].
    2:{ rewrite pyidx_nat_none by auto. destruct (pyidx (a_k A) t); reflexivity. }
    rewrite pyidx_nat by auto. destruct (pyidx (a_k A) t) as [j|] eqn:J; [|reflexivity]. apply pyidx_some in J. destruct J as (J & _). cbn [same_outcome]. split; [|auto].
    set (m := mk (a_d A) (a_n A) (fun a b => if (a =? d)%nat then y else get (slice A j) a b)).
    set (m' := mk (a_d A) (a_n A) (fun a b => if (a =? d)%nat then y' else get (slice A' j) a b)).
    replace (Arr3 (a_d A) (a_n A) (a_k A) (upd (a_s A') j m')) with (setslice A' j m') by (unfold setslice; now rewrite H3, H4, H5).
    apply (arel_set W A A' j m m'); auto; try apply wf_mk.
    - intros e i He Hi Hw. unfold m, m'. rewrite !get_mk by auto. destruct (Nat.eqb_spec e d) as [->|Hne]; [now apply Hy|]. apply (H6 e i j); auto.
      apply (K j e i j eq_refl); auto. intros (_ & ?). contradiction.
    - intros e i s Hs He Hi Ht Hw. apply (K j e i s eq_refl); auto. intros (? & _). contradiction.
  Qed.
  Lemma arel_setcol3 W (W' : nat -> nat -> nat -> Prop) A A' i t y y' : arel W A A' -> a_d A = dim -> posc y y' ->
    (forall j d e s, pyidx (a_k A) t = Some j -> ~ (s = j /\ e = i) -> (d < a_d A)%nat -> (e < a_n A)%nat -> (s < a_k A)%nat -> W' d e s -> W d e s) ->
    same_outcome (fun B B' => arel W' B B' /\ a_d B = a_d A /\ a_n B = a_n A /\ a_k B = a_k A) (setcol3 A (Z.of_nat i) t y) (setcol3 A' (Z.of_nat i) t y').
  Proof.
    intros HA HD Hy K. pose proof HA as (W1 & W2 & H3 & H4 & H5 & H6). unfold setcol3. rewrite H3, H4, H5. destruct (Nat.lt_ge_cases i (a_n A)) as [Hd|Hd].
    2:{ rewrite pyidx_nat_none by auto. destruct (pyidx (a_k A) t); reflexivity. }
    rewrite pyidx_nat by auto. destruct (pyidx (a_k A) t) as [j|] eqn:J; [|reflexivity]. apply pyidx_some in J. destruct J as (J & _). rewrite HD.
    eapply so_bind; [apply (posc_assign y y' Hy)|]. intros c c' Hc. cbn [same_outcome]. split; [|auto]. rewrite <- HD.
    set (m := mk (a_d A) (a_n A) (fun a b => if (b =? i)%nat then get c 0 a else get (slice A j) a b)).
    set (m' := mk (a_d A) (a_n A) (fun a b => if (b =? i)%nat then get c' 0 a else get (slice A' j) a b)).
    replace (Arr3 (a_d A) (a_n A) (a_k A) (upd (a_s A') j m')) with (setslice A' j m') by (unfold setslice; now rewrite H3, H4, H5).
    apply (arel_set W A A' j m m'); auto; try apply wf_mk.
    - intros e b He Hi Hw. unfold m, m'. rewrite !get_mk by auto. destruct (Nat.eqb_spec b i) as [->|Hne]; [apply Hc; lia|]. apply (H6 e b j); auto.
      apply (K j e b j eq_refl); auto. intros (_ & ?). contradiction.
    - intros e b s Hs He Hi Ht Hw. apply (K j e b s eq_refl); auto. intros (? & _). contradiction.
  Qed.
End Ens.
