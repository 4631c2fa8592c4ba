(** C61: torched_DPFC.calculate_u, for every number system. *)
From Coq Require Import String List ZArith Lia Bool.
From Verif Require Import Base.Num Base.Py Base.Arr Lib.ArrLemmas Model.Ext Model.Cdist Model.Score Model.ScoreTorch Model.DPFC Model.TDPFC.
From Verif Require Import Spec.FlowSpec Spec.TorchSpec Spec.QuerySpec.
From Verif Require Import Lib.FlowLemmas Lib.ScoreLemmas Lib.StepLemmas Lib.RunLemmas Lib.StochLemmas Lib.CoreLemmas Lib.TotalLemmas Lib.QueryLemmas Lib.TorchLemmas.
From Verif Require Import Props.Flows Props.Torch Run.Toy.
Import ListNotations.

Section TorchQueries.
  Context {T S : Type} {O : NumOps T} (E : Ext T S).
  Notation mat := (mat T). Notation arr3 := (arr3 T).

  (** every constructed object is consistent *)
  Lemma t_construct_consistent b p s o s' : t_construct E b p s = (Ok o, s') -> p_y1 p <> [] ->
    o_par o = p /\ consistent o (List.length (p_y1 p)) (p_N p) (List.length (o_grid o)).
  Proof.
    intros H Hy. pose proof (C49_torch_shape _ _ _ _ _ _ H Hy) as (HZ & HB & HT).
    destruct (t_construct_ok E b p s o s' H) as (_ & P & _ & G & s1 & s2 & HZr & _). split; [exact P|].
    split; [now rewrite P|]. split; [auto|]. split; [auto|]. split; [auto|]. rewrite P. intro Hb.
    destruct (p_det p).
    - destruct HZr as (_ & HZr). rewrite Hb in HZr. destruct HZr as (Zt & Q & _). eauto.
    - destruct HZr as (_ & _ & Q). rewrite Hb in Q. eauto.
  Qed.

  Definition tu_edge_row (gx b z : mat) (di : nat) : res mat := let! r := t_gauss_row gx b z di in Ok (vec r).
  Lemma tor_setrow (u x : mat) d : tor (setrow u (Z.of_nat d) x) = Ok u -> setrow u (Z.of_nat d) x = Ok u.
  Proof. apply tor_ok. Qed.

  Section Obj.
    Context (o : obj T) (dim N k : nat) (Hc : consistent o dim N k) (A : arr3) (HF : forward_of o A).
    Let B := o_B o.

    Lemma t_calculate_u_eq gx ti j s : selects k ti j ->
      t_calculate_u E o gx ti s =
        let b := slice B j in let fw := slice A j in
        match hull_bnds dim fw b with
        | Err e => (Err e, s)
        | Ok bnds =>
          if ((ti <=? 5) || (Z.of_nat k - 5 <=? ti))%Z then
            (rfold (fun u di => let! x := tu_edge_row gx b fw di in tor (setrow u (Z.of_nat di) x)) (seq 0 dim) (mzeros (mc gx) (mr gx)), s)
          else match t_sample_box E (p_M (o_par o)) bnds s with
               | (Err e, s') => (Err e, s')
               | (Ok Sx, s') =>
                   (let! fb := torched_score_function_multid_seperate_all_dims_fun E (mT b) Sx (TTens1 (tlengthscales b)) nmilli (o_kern o) in
                    let! sb := fb true gx in
                    let! ff := torched_score_function_multid_seperate_all_dims_fun E (mT fw) Sx (TTens1 (tlengthscales fw)) nmilli (o_kern o) in
                    let! sf := ff true gx in
                    tbc2 nsub (mT sb) (mT sf), s')
               end
        end.
    Proof.
      intros Hs. destruct Hc as (L & K & HZ & HB & HT). apply has_shape_sh in HZ, HB. unfold t_calculate_u. cbv zeta. rewrite L, K.
      unfold bind at 1. unfold lift at 1. rewrite (getsl_sel _ _ _ _ _ _ HB Hs).
      unfold bind at 1. unfold lift at 1. rewrite (getsl_sel _ _ _ _ _ _ HZ Hs).
      unfold bridged. set (br := p_reweight (o_par o) && p_brown (o_par o)) in *.
      assert (HFW : (if br then match o_Ztr o with Some zt => getsl zt ti | None => Err AttributeError end else Ok (slice (o_Z o) j)) = Ok (slice A j)).
      { unfold forward_of in HF. fold br in HF. destruct br eqn:Hb.
        - destruct (HT eq_refl) as (Zt & Q & HZt). rewrite HF in Q. injection Q as <-. rewrite HF.
          apply has_shape_sh in HZt. exact (getsl_sel _ _ _ _ _ _ HZt Hs).
        - now rewrite HF. }
      rewrite HFW. unfold bind at 1. unfold lift at 1. unfold bind at 1. unfold lift at 1. fold B.
      destruct (hull_bnds dim (slice A j) (slice B j)) as [bnds|e]; [|reflexivity].
      destruct ((ti <=? 5) || (Z.of_nat k - 5 <=? ti))%Z.
      - unfold lift. f_equal. apply rfold_ext. intros u di _. unfold tu_edge_row. now destruct (t_gauss_row gx (slice B j) (slice A j) di).
      - unfold bind at 1. destruct (t_sample_box E (p_M (o_par o)) bnds s) as [[Sx|e] s1]; [|reflexivity].
        unfold lift. f_equal. rewrite !tlengthscales_eq.
        assert (HL : (if br then tlengthscales (slice A j) else tlengthscales (slice (o_Z o) j)) = tlengthscales (slice A j)).
        { unfold forward_of in HF. fold br in HF. destruct br; [reflexivity|now rewrite HF]. }
        rewrite HL. reflexivity.
    Qed.

    Lemma t_consistent_bnds j : 1 <= N -> j < k -> exists bnds, hull_bnds dim (slice A j) (slice B j) = Ok bnds.
    Proof.
      intros HN Hj. assert (HA : sh A dim N k).
      { destruct Hc as (_ & _ & HZ & _ & HT). unfold forward_of in HF. destruct (p_reweight (o_par o) && p_brown (o_par o)); [|rewrite HF; now apply has_shape_sh].
        destruct (HT eq_refl) as (Zt & Q & HZt). rewrite HF in Q. injection Q as <-. now apply has_shape_sh in HZt. }
      destruct Hc as (_ & _ & _ & HB & _). apply has_shape_sh in HB. fold B in HB.
      destruct (sh_slice _ _ _ _ j HA Hj) as (_ & _ & CA). destruct (sh_slice _ _ _ _ j HB Hj) as (_ & _ & CB).
      unfold hull_bnds. edestruct (rmapM_tot (hull_bnd (slice A j) (slice B j)) (seq 0 dim)) as (r & Hr & _); [|eauto].
      intros d _. assert (HR : forall x : mat, 1 <= mc x -> exists lo hi, lmin (row x d) = Ok lo /\ lmax (row x d) = Ok hi).
      { intros x Hx. unfold row. destruct (mc x); [lia|]. cbn. eauto. }
      destruct (HR (slice A j) ltac:(lia)) as (lo & hi & R1 & R2). destruct (HR (slice B j) ltac:(lia)) as (lo' & hi' & R3 & R4).
      unfold hull_bnd. rewrite R1, R2, R3, R4. cbn. eauto.
    Qed.

    Lemma tu_edge_row_ok gx b z di : di < mc gx -> exists x, tu_edge_row gx b z di = Ok x /\ mr x = 1 /\ mc x = mr gx /\
      forall i, i < mr gx -> bget x 0 i = nsub (t_gauss_score b di (get gx i di)) (t_gauss_score z di (get gx i di)).
    Proof.
      intro H. unfold tu_edge_row, t_gauss_row, column. rewrite (proj2 (Nat.ltb_lt _ _) H). cbn [rbind].
      set (f := fun v => nsub _ _). eexists. split; [reflexivity|]. split; [reflexivity|].
      assert (Lf : forall f : T -> T, List.length (map f (flat (mk (mr gx) 1 (fun i _ => get gx i di)))) = mr gx).
      { intro. unfold flat. now rewrite map_length, col_length. }
      split. { cbn [vec mk mc]. apply Lf. }
      intros i Hi. rewrite bget_in; [|cbn; lia|cbn [vec mk mc]; now rewrite Lf]. rewrite get_vec by now rewrite Lf.
      unfold flat. rewrite col_mk by lia. rewrite map_map. rewrite nth_map_seq by auto. reflexivity.
    Qed.
    Lemma tu_fold_tot (v : nat -> res mat) dm r c : dm <= r ->
      (forall d, d < dm -> exists x, v d = Ok x /\ mr x = 1 /\ mc x = c) ->
      exists u, rfold (fun u di => let! x := v di in tor (setrow u (Z.of_nat di) x)) (seq 0 dm) (mzeros r c) = Ok u.
    Proof.
      intros Hr Hv. destruct (rfold_seq_total (fun u di => let! x := v di in tor (setrow u (Z.of_nat di) x))
        (fun i u => mr u = r /\ mc u = c) dm (mzeros r c)) as (u & Hu & _); [auto| |eauto].
      intros i b Hi (R & C). destruct (Hv i Hi) as (x & Hx & X1 & X2). rewrite Hx. cbn [rbind].
      rewrite setrow_nat by lia. eexists. split; [reflexivity|]. cbn. auto.
    Qed.
    Lemma rfold_tor (v : nat -> res mat) l (a u : mat) :
      rfold (fun u di => let! x := v di in tor (setrow u (Z.of_nat di) x)) l a = Ok u ->
      rfold (fun u di => let! x := v di in setrow u (Z.of_nat di) x) l a = Ok u.
    Proof.
      revert a. induction l as [|d l IH]; intros a H; [exact H|]. cbn [rfold] in *.
      destruct (v d) as [x|e]; cbn [rbind] in *; [|discriminate].
      apply rbind_ok in H. destruct H as (a' & Ha & H). apply tor_ok in Ha. rewrite Ha. cbn [rbind]. auto.
    Qed.

    (** ** C61: the control near the ends is the difference of two Gaussian scores (with N-1 in the variance) *)
    Theorem C61_torch_gaussian_window gx ti j s : 1 <= N -> selects k ti j -> edge k ti -> dim <= mc gx ->
      exists u, t_calculate_u E o gx ti s = (Ok u, s) /\ mr u = mc gx /\ mc u = mr gx /\
        (forall d i, d < dim -> i < mr gx ->
           get u d i = nsub (t_gauss_score (slice B j) d (get gx i d)) (t_gauss_score (slice A j) d (get gx i d))) /\
        (forall d i, dim <= d -> d < mc gx -> i < mr gx -> get u d i = nzero).
    Proof.
      intros HN Hs He Hm. rewrite (t_calculate_u_eq gx ti j s Hs). cbv zeta.
      destruct (t_consistent_bnds j HN ltac:(apply Hs)) as (bnds & Hb). rewrite Hb.
      replace ((ti <=? 5) || (Z.of_nat k - 5 <=? ti))%Z with true.
      2:{ symmetry. apply orb_true_iff. unfold edge in He. lia. }
      destruct (tu_fold_tot (tu_edge_row gx (slice B j) (slice A j)) dim (mc gx) (mr gx)) as (u & Hu); auto.
      { intros d Hd. destruct (tu_edge_row_ok gx (slice B j) (slice A j) d ltac:(lia)) as (x & X1 & X2 & X3 & _). eauto. }
      exists u. rewrite Hu. split; [auto|]. apply rfold_tor, rows_fold_ok in Hu. destruct Hu as (_ & R & C & _ & Hv & Hz).
      split; [auto|]. split; [auto|]. split.
      - intros d i Hd Hi. destruct (Hv d Hd) as (x & X1 & _ & _ & X2). rewrite X2 by auto.
        destruct (tu_edge_row_ok gx (slice B j) (slice A j) d ltac:(lia)) as (x' & Y1 & _ & _ & Y2).
        assert (x' = x) as -> by congruence. auto.
      - intros. apply Hz; auto.
    Qed.

    Lemma t_estimated_shape kern z Sx gx G : 1 <= mr z -> mc Sx = mr z -> t_estimated E kern z Sx gx G ->
      2 <= mr z /\ mr G = mr gx /\ mc G = mr z.
    Proof.
      intros H1 HS (fn & E4 & E5).
      destruct (torch_score_fun_shape E _ _ _ _ _ _ _ _ _ E4 E5) as (b' & K & Ki & A0 & s0 & Htp & WG & RG & CG).
      assert (Hls : List.length (tlengthscales z) = mr z) by (unfold tlengthscales; now rewrite map_length, seq_length).
      assert (H2 : 2 <= mr z).
      { destruct (Nat.eq_dec (mr z) 1) as [D1|]; [|lia]. exfalso.
        unfold torched_score_function_multid_seperate_all_dims_fun in E4. rewrite Htp in E4. cbn [rbind] in E4. injection E4 as <-.
        assert (b' = false).
        { unfold tprep in Htp. cbn [tl_multil rbind] in Htp. rewrite Hls, D1 in Htp. cbn [Nat.ltb Nat.leb] in Htp.
          destruct (RBF_init _ none1 false); [|discriminate]. cbn [rbind] in Htp. apply rbind_ok in Htp. destruct Htp as ((? & ?) & _ & Htp).
          cbn [rbind] in Htp. apply rbind_ok in Htp. destruct Htp as ((? & ?) & _ & Htp). invok. congruence. }
        subst b'. unfold tKsz in E5. destruct (String.eqb kern "RBF"); discriminate. }
      split; [auto|]. split; [auto|].
      apply tprep_ok in Htp; [|lia]. destruct Htp as (_ & _ & Hs0).
      rewrite CG, Hs0, Hls. cbn [mc mT mk]. rewrite HS, bdim_refl. apply bdim_refl.
    Qed.

    (** ** C61: in the interior, the difference of two score estimates on common inducing points drawn from the bounding box
        of both ensembles; in bridge mode the auxiliary flow is the forward one and nothing is clipped *)
    Theorem C61_torch_interior_control gx ti s u s' : 1 <= dim ->
      (6 <= ti <= Z.of_nat k - 6)%Z -> t_calculate_u E o gx ti s = (Ok u, s') ->
      let z := slice A (Z.to_nat ti) in let b := slice B (Z.to_nat ti) in
      2 <= dim /\ mr u = dim /\ mc u = mr gx /\
      exists bnds Sx sb sz, List.length bnds = dim /\ (forall d, d < dim -> union_range z b d (nth d bnds (nzero, nzero))) /\
        tdrawn E (p_M (o_par o)) s bnds Sx s' /\
        t_estimated E (o_kern o) b Sx gx sb /\ t_estimated E (o_kern o) z Sx gx sz /\
        mr sb = mr gx /\ mc sb = dim /\ mr sz = mr gx /\ mc sz = dim /\
        forall d i, d < dim -> i < mr gx -> get u d i = nsub (get sb i d) (get sz i d).
    Proof.
      intros H1 Ht H z b. assert (Hs : selects k ti (Z.to_nat ti)) by (unfold selects; lia).
      rewrite (t_calculate_u_eq gx ti _ s Hs) in H. cbv zeta in H. fold z b in H.
      destruct (hull_bnds dim z b) as [bnds|e] eqn:Hbn; [|discriminate].
      replace ((ti <=? 5) || (Z.of_nat k - 5 <=? ti))%Z with false in H.
      2:{ symmetry. apply orb_false_iff. lia. }
      destruct (t_sample_box E (p_M (o_par o)) bnds s) as [[Sx|e] s1] eqn:HS; [|discriminate].
      injection H as Hr ->. apply t_sample_box_ok in HS. pose proof HS as (_ & h & _ & HP).
      apply hull_bnds_ok in Hbn. destruct Hbn as (L & Hcr).
      apply rbind_ok in Hr. destruct Hr as (fb & F1 & Hr). apply rbind_ok in Hr. destruct Hr as (sb & F2 & Hr).
      apply rbind_ok in Hr. destruct Hr as (ff & F3 & Hr). apply rbind_ok in Hr. destruct Hr as (sz & F4 & Hr).
      assert (HA : sh A dim N k).
      { destruct Hc as (_ & _ & HZ & _ & HT). unfold forward_of in HF. destruct (p_reweight (o_par o) && p_brown (o_par o)); [|rewrite HF; now apply has_shape_sh].
        destruct (HT eq_refl) as (Zt & Q & HZt). rewrite HF in Q. injection Q as <-. now apply has_shape_sh in HZt. }
      assert (HB : sh B dim N k). { destruct Hc as (_ & _ & _ & HB & _). now apply has_shape_sh in HB. }
      destruct (sh_slice _ _ _ _ (Z.to_nat ti) HA ltac:(lia)) as (_ & RA & _). fold z in RA.
      destruct (sh_slice _ _ _ _ (Z.to_nat ti) HB ltac:(lia)) as (_ & RB & _). fold b in RB.
      assert (CS : mc Sx = dim) by (rewrite HP; cbn; auto).
      assert (Eb : t_estimated E (o_kern o) b Sx gx sb) by (exists fb; auto).
      assert (Ez : t_estimated E (o_kern o) z Sx gx sz) by (exists ff; auto).
      destruct (t_estimated_shape (o_kern o) b Sx gx sb ltac:(lia) ltac:(congruence) Eb) as (D2 & Rb & Cb).
      destruct (t_estimated_shape (o_kern o) z Sx gx sz ltac:(lia) ltac:(congruence) Ez) as (_ & Rz & Cz).
      apply tbc2_ok in Hr. rewrite bc2_same with (r := dim) (c := mr gx) in Hr by (cbn; congruence). injection Hr as <-.
      split; [lia|]. split; [reflexivity|]. split; [reflexivity|].
      exists bnds, Sx, sb, sz. repeat (split; [solve [auto|congruence]|]).
      intros d i Hd Hi. rewrite get_mk by lia. now rewrite !get_mT by lia.
    Qed.

    Theorem C61_torch_out_of_range gx ti s : (ti < - Z.of_nat k \/ Z.of_nat k <= ti)%Z ->
      t_calculate_u E o gx ti s = (Err IndexError, s).
    Proof.
      intros Ht. destruct Hc as (L & K & HZ & HB & HT). apply has_shape_sh in HB. unfold t_calculate_u. cbv zeta.
      unfold bind at 1. unfold lift at 1. now rewrite (getsl_out _ _ _ _ _ HB Ht).
    Qed.
  End Obj.
End TorchQueries.

(** ** concrete queries *)
Definition ttoy12 := toy 12000 P0 P1 false false true f2 U2.          (* 13 grid points *)
Example C61_toy : exists o s' u s'', t_construct ToyExt IsTensor ttoy12 7%Z = (Ok o, s') /\ consistent o 2 4 13 /\ forward_of o (o_Z o) /\
  t_calculate_u ToyExt o (mk 3 2 (fun i d => Z.of_nat (i + d))) 6 5%Z = (Ok u, s'') /\ mr u = 2 /\ mc u = 3 /\ s'' <> 5%Z /\
  selects 13 (-2) 11 /\ edge 13 (-2) /\ exists v, t_calculate_u ToyExt o (mk 3 2 (fun i d => Z.of_nat (i + d))) (-2) 5%Z = (Ok v, 5%Z) /\ get v 0 1 <> 0%Z.
Proof.
  assert (R : t_okrun ttoy12 = 13) by (vm_compute; reflexivity).
  destruct (t_okrun_run _ _ R) as (o & s' & H & L). exists o, s'.
  destruct (t_construct_consistent _ _ _ _ _ _ H ltac:(discriminate)) as (P & Hc). rewrite L in Hc.
  assert (HF : forward_of o (o_Z o)). { unfold forward_of. rewrite P. reflexivity. }
  assert (Q : match t_construct ToyExt IsTensor ttoy12 7%Z with (Ok o, _) =>
     match t_calculate_u ToyExt o (mk 3 2 (fun i d => Z.of_nat (i + d))) 6 5%Z,
           t_calculate_u ToyExt o (mk 3 2 (fun i d => Z.of_nat (i + d))) (-2) 5%Z with
     | (Ok u, s''), (Ok v, s3) => mr u = 2 /\ mc u = 3 /\ (s'' =? 5)%Z = false /\ s3 = 5%Z /\ (get v 0 1 =? 0)%Z = false | _, _ => False end | _ => False end).
  { vm_compute. auto. }
  rewrite H in Q. destruct (t_calculate_u ToyExt o _ 6 5%Z) as [[u|e] s'']; [|contradiction].
  destruct (t_calculate_u ToyExt o _ (-2) 5%Z) as [[v|e] s3]; [|contradiction].
  destruct Q as (Q1 & Q2 & Q3 & -> & Q4). apply Z.eqb_neq in Q3, Q4. exists u, s''.
  do 7 (split; [now auto|]). split; [unfold selects; lia|]. split; [unfold edge; lia|]. eauto.
Qed.
