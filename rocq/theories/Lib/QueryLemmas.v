(** Lemmas about calculate_u and check_if_covered. *)
From Coq Require Import String List ZArith Lia Bool.
From Verif Require Import Base.Num Base.Py Base.Arr Lib.ArrLemmas Model.Ext Model.Cdist Model.Score Model.DPFC.
From Verif Require Import Spec.FlowSpec Spec.QuerySpec Lib.FlowLemmas Lib.ScoreLemmas Lib.StepLemmas Lib.TotalLemmas.
Import ListNotations.

Lemma rbind_assoc {A B C} (m : res A) (f : A -> res B) (g : B -> res C) :
  rbind (rbind m f) g = rbind m (fun a => rbind (f a) g).
Proof. now destruct m. Qed.

Section QueryLemmas.
  Context {T S : Type} {O : NumOps T} (E : Ext T S).
  Notation mat := (mat T). Notation arr3 := (arr3 T).

  Lemma rows_wf (A : mat) : List.length (md A) = mr A -> Forall (fun r => List.length r = mc A) (md A) -> wf A.
  Proof.
    intros L F. unfold wf. destruct A as [r c l]. cbn in *. unfold mk, get. cbn. subst r. f_equal.
    rewrite <- (map_nth_seq l []) at 1. apply map_seq_ext. intros i Hi.
    rewrite Forall_forall in F. rewrite <- (F (nth i l [])) by now apply nth_In. now rewrite map_nth_seq.
  Qed.
  Lemma has_shape_sh (A : arr3) d n k : has_shape A d n k -> sh A d n k.
  Proof.
    intros (D & N & K & L & F). split; [|auto]. split; [congruence|]. intros t Ht. unfold slice.
    rewrite Forall_forall in F. destruct (F (nth t (a_s A) (mzeros (a_d A) (a_n A)))) as (R & C & L1 & L2).
    { apply nth_In. lia. }
    split; [|split; congruence]. apply rows_wf; [congruence|]. now rewrite C.
  Qed.

  (** out = zeros((r,c)); for d in range(dim): out[d] = v(d) *)
  Definition rows_fold (v : nat -> res mat) (dim r c : nat) : res mat :=
    rfold (fun u di => let! x := v di in setrow u (Z.of_nat di) x) (seq 0 dim) (mzeros r c).

  Lemma rows_fold_ok v dim r c u : rows_fold v dim r c = Ok u ->
    wf u /\ mr u = r /\ mc u = c /\ dim <= r /\
    (forall d, d < dim -> exists x, v d = Ok x /\ mr x = 1 /\ (mc x = c \/ mc x = 1) /\ forall j, j < c -> get u d j = bget x 0 j) /\
    (forall d j, dim <= d -> d < r -> j < c -> get u d j = nzero).
  Proof.
    unfold rows_fold. intro H.
    apply (rfold_seq_inv _ (fun i u => wf u /\ mr u = r /\ mc u = c /\ i <= r /\
      (forall d, d < i -> exists x, v d = Ok x /\ mr x = 1 /\ (mc x = c \/ mc x = 1) /\ forall j, j < c -> get u d j = bget x 0 j) /\
      (forall d j, i <= d -> d < r -> j < c -> get u d j = nzero))) in H; auto.
    - split; [apply wf_mk|]. split; [reflexivity|]. split; [reflexivity|]. split; [lia|]. split; [intros; lia|].
      intros. unfold mzeros, mconst. now rewrite get_mk by lia.
    - intros i B B' Hi (W & R & C & Hle & Hv & Hz) Hs. invok. pose proof Hs as Hs0. unfold setrow in Hs0.
      apply setrow_nat_ok in Hs. destruct Hs as (Hi' & Hr' & Hc' & W' & Hs1 & Hs2).
      rewrite pyidx_nat in Hs0 by lia. invok. apply assign_shape_ok in E1.
      destruct E1 as (_ & _ & _ & F1 & F2 & _).
      split; [auto|]. split; [congruence|]. split; [congruence|]. split; [lia|]. split.
      + intros d Hd. destruct (Nat.eq_dec d i) as [->|].
        * exists a. split; [auto|]. split; [intuition|]. split; [intuition congruence|]. intros j Hj. apply Hs1. lia.
        * destruct (Hv d) as (x & V1 & V2 & V3 & V4); [lia|]. exists x. repeat split; auto. intros j Hj. rewrite Hs2 by lia. auto.
      + intros d j H1 H2 H3. rewrite Hs2 by lia. apply Hz; lia.
  Qed.
  Lemma rows_fold_tot (v : nat -> res mat) dim r c : dim <= r ->
    (forall d, d < dim -> exists x, v d = Ok x /\ mr x = 1 /\ mc x = c) -> exists u, rows_fold v dim r c = Ok u.
  Proof.
    intros Hr Hv. destruct (rfold_seq_total (fun u di => let! x := v di in setrow u (Z.of_nat di) x)
      (fun i u => mr u = r /\ mc u = c) dim (mzeros r c)) as (u & Hu & _); [auto| |eauto].
    intros i b Hi (R & C). destruct (Hv i Hi) as (x & Hx & X1 & X2). rewrite Hx. cbn [rbind].
    rewrite setrow_nat by lia. eexists. split; [reflexivity|]. cbn. auto.
  Qed.
  (** the first failing row decides *)
  Lemma rows_fold_err v dim r c i e : i < dim -> i <= r ->
    (forall d, d < i -> exists x, v d = Ok x /\ mr x = 1 /\ mc x = c) -> v i = Err e -> rows_fold v dim r c = Err e.
  Proof.
    intros Hi Hr Hv He. unfold rows_fold. replace dim with (i + Datatypes.S (dim - i - 1)) by lia.
    rewrite seq_app, rfold_app. destruct (rows_fold_tot v i r c Hr Hv) as (u & Hu). unfold rows_fold in Hu.
    rewrite Hu. cbn. now rewrite He.
  Qed.
  Lemma rows_fold_ext v v' dim r c : (forall d, d < dim -> v d = v' d) -> rows_fold v dim r c = rows_fold v' dim r c.
  Proof. intro H. apply rfold_ext. intros b a Ha. apply in_seq in Ha. now rewrite H by lia. Qed.

  (** ** index arithmetic *)
  Lemma selects_idx k ti j : selects k ti j <-> pyidx k ti = Some j.
  Proof.
    unfold selects. split.
    - intros (Hj & [->| ->]); [now apply pyidx_nat|]. rewrite pyidx_neg by lia. f_equal. lia.
    - intro H. apply pyidx_some in H. lia.
  Qed.
  Lemma getsl_sel (A : arr3) d n k ti j : sh A d n k -> selects k ti j -> getsl A ti = Ok (slice A j).
  Proof. intros (_ & _ & _ & K) H. apply selects_idx in H. unfold getsl. now rewrite K, H. Qed.
  Lemma getsl_out (A : arr3) d n k ti : sh A d n k -> (ti < - Z.of_nat k \/ Z.of_nat k <= ti)%Z -> getsl A ti = Err IndexError.
  Proof. intros (_ & _ & _ & K) H. unfold getsl. rewrite K. now rewrite pyidx_out. Qed.

  (** ** calculate_u, unfolded *)
  Definition u_edge_row (gx b z : mat) (di : nat) : res mat := let! r := gauss_row gx b z di in Ok (vec r).
  Definition u_score (kern : string) (z Sp : mat) (ls : list T) (d : nat) (gx : mat) : res (list T) :=
    let! fn := score_function_multid_seperate_fun E (mT z) Sp nmilli kern (LVec ls) (Z.of_nat d + 1) in fn gx.
  Definition u_kern_row (bridge : bool) (kern : string) (dim : nat) (gx b z : mat) (Sp : mat) (di : nat) : res mat :=
    let! sb := u_score kern b Sp (two_std b) di gx in
    let! gz := (if bridge then let! bb := bndsztr dim z di in clip_rows gx bb else Ok gx) in
    let! sf := u_score kern z Sp (two_std z) di gz in
    bc2 nsub (vec sb) (vec sf).

  Lemma calculate_u_eq o dim N k A gx ti j s : consistent o dim N k -> forward_of o A -> selects k ti j ->
    calculate_u E o gx ti s =
      let b := slice (o_B o) j in let fw := slice A j in
      match inter_bnds dim fw b with
      | Err e => (Err e, s)
      | Ok bnds =>
        if ((ti <=? 5) || (Z.of_nat k - 5 <=? ti))%Z then (rows_fold (u_edge_row gx b fw) dim (mc gx) (mr gx), s)
        else match sample_box E (p_M (o_par o)) bnds s with
             | (Err e, s') => (Err e, s')
             | (Ok Sx, s') => (rows_fold (u_kern_row (p_reweight (o_par o) && p_brown (o_par o)) (o_kern o) dim gx b fw (mT Sx)) dim (mc gx) (mr gx), s')
             end
      end.
  Proof.
    intros (L & K & HZ & HB & HT) HF Hs. apply has_shape_sh in HZ, HB. unfold calculate_u. cbv zeta. rewrite L, K.
    unfold bind at 1. unfold lift at 1. rewrite (getsl_sel _ _ _ _ _ _ HB Hs).
    unfold bind at 1. unfold lift at 1. rewrite (getsl_sel _ _ _ _ _ _ HZ Hs).
    unfold bridged. set (br := p_reweight (o_par o) && p_brown (o_par o)) in *.
    assert (HFW : (if br then match o_Ztr o with Some zt => getsl zt ti | None => Err AttributeError end else Ok (slice (o_Z o) j)) = Ok (slice A j)).
    { unfold forward_of in HF. fold br in HF. destruct br eqn:Hb.
      - destruct (HT eq_refl) as (Zt & Q & HZt). rewrite HF in Q. injection Q as <-. rewrite HF.
        apply has_shape_sh in HZt. exact (getsl_sel _ _ _ _ _ _ HZt Hs).
      - now subst A. }
    rewrite HFW. unfold bind at 1. unfold lift at 1.
    unfold bind at 1. unfold lift at 1. destruct (inter_bnds dim (slice A j) (slice (o_B o) j)) as [bnds|e]; [|reflexivity].
    destruct ((ti <=? 5) || (Z.of_nat k - 5 <=? ti))%Z.
    - unfold lift. f_equal. unfold rows_fold, u_edge_row. apply rfold_ext. intros u di _. now destruct (gauss_row gx (slice (o_B o) j) (slice A j) di).
    - unfold bind at 1. destruct (sample_box E (p_M (o_par o)) bnds s) as [[Sx|e] s1]; [|reflexivity].
      unfold lift. f_equal. unfold rows_fold. apply rfold_ext. intros u di _. unfold u_kern_row, u_score.
      rewrite ?rbind_assoc. destruct (score_function_multid_seperate_fun E (mT (slice (o_B o) j)) _ _ _ _ _) as [fb|e]; [|reflexivity]. cbn [rbind].
      rewrite ?rbind_assoc. destruct (fb gx) as [sb|e]; [|reflexivity]. cbn [rbind]. rewrite ?rbind_assoc.
      destruct br eqn:Hb.
      + rewrite ?rbind_assoc. destruct (bndsztr dim (slice A j) di) as [bb|e]; [|reflexivity]. cbn [rbind].
        rewrite ?rbind_assoc. destruct (clip_rows gx bb) as [gz|e]; [|reflexivity]. cbn [rbind].
        rewrite ?rbind_assoc. destruct (score_function_multid_seperate_fun E (mT (slice A j)) _ _ _ _ _) as [ff|e]; [|reflexivity]. cbn [rbind].
        destruct (ff gz); reflexivity.
      + cbn [rbind]. unfold forward_of in HF. fold br in HF. rewrite Hb in HF. subst A. rewrite ?rbind_assoc.
        destruct (score_function_multid_seperate_fun E (mT (slice (o_Z o) j)) _ _ _ _ _) as [ff|e]; [|reflexivity]. cbn [rbind].
        destruct (ff gx); reflexivity.
  Qed.
  Lemma calculate_u_out o dim N k gx ti s : consistent o dim N k -> (ti < - Z.of_nat k \/ Z.of_nat k <= ti)%Z ->
    calculate_u E o gx ti s = (Err IndexError, s).
  Proof.
    intros (L & K & HZ & HB & HT) Ht. apply has_shape_sh in HB. unfold calculate_u. cbv zeta.
    unfold bind at 1. unfold lift at 1. now rewrite (getsl_out _ _ _ _ _ HB Ht).
  Qed.
  Lemma selects_cases k ti : (exists j, selects k ti j) \/ (ti < - Z.of_nat k \/ Z.of_nat k <= ti)%Z.
  Proof.
    destruct (pyidx k ti) as [j|] eqn:H. { left. exists j. now apply selects_idx. }
    right. unfold pyidx in H. destruct (0 <=? ti)%Z eqn:A, (ti <? Z.of_nat k)%Z eqn:B, (- Z.of_nat k <=? ti)%Z eqn:C; try discriminate; lia.
  Qed.

  Lemma edge_row_ok gx b z di : di < mc gx -> exists x, u_edge_row gx b z di = Ok x /\ mr x = 1 /\ mc x = mr gx /\
    forall i, i < mr gx -> bget x 0 i = nsub (gauss_score b di (get gx i di)) (gauss_score z di (get gx i di)).
  Proof.
    intro H. unfold u_edge_row, gauss_row, column. rewrite (proj2 (Nat.ltb_lt _ _) H). cbn [rbind].
    set (f := fun v => nsub _ _). eexists. split; [reflexivity|]. split; [reflexivity|].
    assert (Lf : forall f : T -> T, List.length (map f (flat (mk (mr gx) 1 (fun i _ => get gx i di)))) = mr gx).
    { intro. unfold flat. now rewrite map_length, col_length. }
    split. { cbn [vec mk mc]. apply Lf. }
    intros i Hi. rewrite bget_in; [|cbn; lia|cbn [vec mk mc]; now rewrite Lf]. rewrite get_vec by now rewrite Lf.
    unfold flat. rewrite col_mk by lia. rewrite map_map. rewrite nth_map_seq by auto. reflexivity.
  Qed.
  Lemma edge_row_err gx b z di : mc gx <= di -> u_edge_row gx b z di = Err IndexError.
  Proof. intro H. unfold u_edge_row, gauss_row, column. destruct (Nat.ltb_spec di (mc gx)); [lia|reflexivity]. Qed.

  Lemma consistent_bnds o dim N k A j : consistent o dim N k -> 1 <= N -> forward_of o A -> j < k ->
    exists bnds, inter_bnds dim (slice A j) (slice (o_B o) j) = Ok bnds.
  Proof.
    intros (L & K & HZ & HB & HT) HN HF Hj. apply has_shape_sh in HZ, HB.
    assert (HA : sh A dim N k).
    { unfold forward_of in HF. destruct (p_reweight (o_par o) && p_brown (o_par o)); [|now subst A].
      destruct (HT eq_refl) as (Zt & Q & HZt). rewrite HF in Q. injection Q as <-. now apply has_shape_sh in HZt. }
    destruct (sh_slice _ _ _ _ j HA Hj) as (_ & _ & C1). destruct (sh_slice _ _ _ _ j HB Hj) as (_ & _ & C2).
    destruct (inter_bnds_tot dim (slice A j) (slice (o_B o) j)) as (r & Hr & _); [lia|lia|eauto].
  Qed.
End QueryLemmas.
