(** Propagation of NaN through the torch estimator (no modelling content). *)
From Coq Require Import String List ZArith Reals Bool Lia Lra Permutation.
From Flocq Require Import Core BinarySingleNaN.
From Verif Require Import Base.Num Base.Py Base.Arr Lib.ArrLemmas Model.Ext Model.Cdist Model.Score Model.ScoreTorch Lib.ScoreLemmas Lib.TorchLemmas Run.Double Spec.DoubleSpec.
From Verif Require Import Lib.DoubleLemmas Lib.NaNLemmas.
Import ListNotations.
Local Open Scope nat_scope.

Section TN.
  Context (fexp fsin fcos : double -> double) (fsum : list double -> double).
  #[local] Hint Extern 0 (NumOps double) => exact (NOps fexp fsin fcos fsum) : typeclass_instances.
  Context (Hs : sum_contract fsum) (He : fexp dNaN = dNaN).
  Notation mat := (mat double).
  Notation nan_at := (nan_at fexp fsin fcos fsum).

  Lemma kval_nan (l : list double) : In dNaN l -> nexp (nmul (nlit (-1) 2) (nsum l)) = dNaN.
  Proof. intro H. rewrite (fsum_nan fexp fsin fcos fsum Hs l H). cbn [nexp nmul NOps DoubleOps]. rewrite mul_nan_r. exact He. Qed.
  Lemma rbf_nan_scale ls (x Zp k : mat) d : rbf_vals (LVec ls) x Zp = Ok k -> 2 <= List.length ls -> d < List.length ls -> nth d ls nzero = dNaN ->
    mr k = mr x /\ mc k = mr Zp /\ forall i, i < mr x -> nan_at k i.
  Proof.
    intros H HL Hd Hn. unfold rbf_vals in H. destruct (bok (mc x) (mc Zp)) eqn:B1; [|discriminate]. cbv zeta in H. set (D := bdim (mc x) (mc Zp)) in *. set (L := List.length ls) in *. destruct (bok D L) eqn:B2; [|discriminate].
    injection H as <-. split; [reflexivity|]. split; [reflexivity|]. intros i Hi j Hj. cbn [mk mc] in Hj. rewrite get_mk by auto.
    apply kval_nan. apply in_map_iff. exists d. split.
    - assert (Q : bidx L d = d) by (unfold bidx; destruct (Nat.eqb_spec L 1); [lia|reflexivity]). rewrite Q. match goal with |- context [nth d ls ?z] => change (nth d ls z) with (nth d ls nzero) end. rewrite Hn. apply div_nan_r.
    - apply in_seq. unfold bdim. unfold bok in B2. destruct (Nat.eqb_spec D 1); destruct (Nat.eqb_spec L 1); destruct (Nat.eqb_spec D L); cbn in B2; try lia; try discriminate.
  Qed.
  Lemma rbf_nan_point ls (x Zp k : mat) i d : rbf_vals (LVec ls) x Zp = Ok k -> mc x = mc Zp -> List.length ls = mc x -> i < mr x -> d < mc x -> get x i d = dNaN ->
    mr k = mr x /\ mc k = mr Zp /\ nan_at k i.
  Proof.
    intros H HC HL Hi Hd Hn. unfold rbf_vals in H. rewrite <- HC, bok_refl, bdim_refl, HL, bok_refl, bdim_refl in H. cbv zeta in H. injection H as <-. split; [reflexivity|]. split; [reflexivity|].
    intros j Hj. cbn [mk mc] in Hj. rewrite get_mk by auto. apply kval_nan. apply in_map_iff. exists d. split; [|apply in_seq; lia].
    assert (Q : bidx (mc x) d = d) by (unfold bidx; destruct (Nat.eqb_spec (mc x) 1); lia). unfold diff3. rewrite !Q, Hn. reflexivity.
  Qed.

  Context {S : Type} (X : Ext double S).
  Lemma tinv_square (A B : mat) : tinv X A = Ok B -> mc B = mr B.
  Proof. unfold tinv. intro H. apply tor_ok in H. eapply inv_square; eauto. Qed.
  Lemma tinner_square m Ki A (B : mat) : tinner X m Ki A = Ok B -> mc B = mr B.
  Proof. unfold tinner. intro H. invok. eapply tinv_square; eauto. Qed.
  Lemma tprep_square Xs Zp l b K Ki A s : tprep X Xs Zp l = Ok (b, K, Ki, A, s) -> mc Ki = mr Ki.
  Proof.
    unfold tprep. intro H. apply rbind_ok in H. destruct H as (ml & _ & H). apply rbind_ok in H. destruct H as (K0 & _ & H). apply rbind_ok in H. destruct H as ([kxz K1] & _ & H). apply rbind_ok in H. destruct H as (Kz & _ & H).
    apply rbind_ok in H. destruct H as ([ks K2] & _ & H). apply rbind_ok in H. destruct H as (a & _ & H). apply rbind_ok in H. destruct H as (Ki' & HKi & H). apply rbind_ok in H. destruct H as (A' & _ & H). apply rbind_ok in H. destruct H as (G & _ & H).
    injection H as _ _ <- _ _. eapply tinv_square; eauto.
  Qed.
  Lemma tail_nan (k inn Ki c G : mat) i : mmul k inn = Ok c -> forall b s, mmul c Ki = Ok b -> mmul b s = Ok G -> mc inn = mr inn -> mc Ki = mr Ki -> i < mr k -> 1 <= mc k -> nan_at k i -> nan_at G i.
  Proof.
    intros Ha b s Hb Hc Sq Sq' Hi H1 Hn. pose proof (mmul_nan fexp fsin fcos fsum Hs _ _ _ i Ha Hi H1 Hn) as N1. apply mmul_ok in Ha. destruct Ha as (M1 & _ & Ra & Ca & _).
    pose proof (mmul_nan fexp fsin fcos fsum Hs _ _ _ i Hb ltac:(lia) ltac:(lia) N1) as N2. apply mmul_ok in Hb. destruct Hb as (M2 & _ & Rb & Cb & _).
    apply (mmul_nan fexp fsin fcos fsum Hs _ _ _ i Hc); [lia|lia|exact N2].
  Qed.
  (** the returned function *)
  Lemma tfun_nan Xs Zp ls C kern fn x G i : torched_score_function_multid_seperate_all_dims_fun X Xs Zp (TTens1 ls) C kern = Ok fn -> fn true x = Ok G -> i < mr x -> 1 <= mr Zp ->
    2 <= List.length ls /\ ((forall k, rbf_vals (LVec ls) x Zp = Ok k -> mr k = mr x /\ mc k = mr Zp /\ nan_at k i) -> nan_at G i).
  Proof.
    intros H Hf Hi HM. unfold torched_score_function_multid_seperate_all_dims_fun in H. apply rbind_ok in H. destruct H as (((((ml & K) & Ki) & A) & s) & HP & H). injection H as <-.
    apply rbind_ok in Hf. destruct Hf as (k & Hk & Hf). apply rbind_ok in Hf. destruct Hf as (inn & Hin & Hf). apply rbind_ok in Hf. destruct Hf as (a & Ha & Hf). apply rbind_ok in Hf. destruct Hf as (b & Hb & Hf). apply tor_ok in Ha, Hb, Hf.
    unfold tKsz in Hk. destruct (String.eqb kern "RBF"); [|discriminate]. destruct ml; [|discriminate]. split.
    - unfold tprep in HP. cbn [tl_multil rbind] in HP. destruct (Nat.ltb_spec 1 (List.length ls)) as [|Q0]; [lia|]. exfalso.
      apply rbind_ok in HP. destruct HP as (K0 & _ & H). apply rbind_ok in H. destruct H as ([kxz K1] & _ & H). apply rbind_ok in H. destruct H as (Kz & _ & H).
      apply rbind_ok in H. destruct H as ([ks K2] & _ & H). apply rbind_ok in H. destruct H as (a' & _ & H). apply rbind_ok in H. destruct H as (Ki' & HKi & H). apply rbind_ok in H. destruct H as (A' & _ & H). apply rbind_ok in H. destruct H as (G' & _ & H). discriminate.
    - intro Hn. cbn [tl_lscale] in Hk. destruct (Hn k Hk) as (R & Cc & N). apply (tail_nan _ _ _ _ _ i Ha _ _ Hb Hf); [cbn; exact (tinner_square _ _ _ _ Hin)|exact (tprep_square _ _ _ _ _ _ _ _ HP)|lia|lia|exact N].
  Qed.
  (** the estimate at the ensemble itself *)
  Lemma tself_nan Xs Zp ls C kern G i : torched_score_function_multid_seperate_all_dims X Xs Zp (TTens1 ls) C kern = Ok G -> i < mr Xs -> 1 <= mr Zp -> 2 <= List.length ls ->
    (forall k, rbf_vals (LVec ls) Xs Zp = Ok k -> mr k = mr Xs /\ mc k = mr Zp /\ nan_at k i) -> nan_at G i.
  Proof.
    intros H Hi HM HL Hn. unfold torched_score_function_multid_seperate_all_dims in H. apply rbind_ok in H. destruct H as (((((ml & K) & Ki) & A) & s) & HP & H). apply rbind_ok in H. destruct H as (cols & Hcol & H). injection H as <-.
    pose proof (tprep_square _ _ _ _ _ _ _ _ HP) as Sq.
    assert (NK : mr K = mr Xs /\ mc K = mr Zp /\ nan_at K i).
    { unfold tprep in HP. cbn [tl_multil rbind] in HP. destruct (Nat.ltb_spec 1 (List.length ls)) as [Q0|]; [|lia]. cbn [tl_lscale RBF_init rbind] in HP. apply rbind_ok in HP. destruct HP as ([kxz K1] & HK & H'). 
      cbn [rbind] in H'. apply rbind_ok in H'. destruct H' as ([ks K2] & _ & H'). apply rbind_ok in H'. destruct H' as (a' & _ & H'). apply rbind_ok in H'. destruct H' as (Ki' & HKi & H'). apply rbind_ok in H'. destruct H' as (A' & _ & H'). apply rbind_ok in H'. destruct H' as (G' & _ & H').
      injection H' as _ <- _ _ _. unfold RBF_Kernel in HK. cbn [rb_multil rb_l rb_sv rbf_kvals] in HK. apply rbind_ok in HK. destruct HK as (k & Hk & HK). injection HK as <- _. destruct (Hn k Hk) as (R & Cc & N).
      split; [exact R|]. split; [exact Cc|]. intros j Hj. unfold smul. rewrite get_mmap1 by (cbn in Hj; lia). rewrite (N j) by (cbn in Hj; lia). cbn [nmul NOps DoubleOps]. apply mul_nan_r. }
    destruct NK as (RK & CK & NK). intros di Hdi. cbn [mk mc] in Hdi. rewrite get_mk by auto.
    apply (rmapM_seq_ok _ _ _ []) in Hcol. destruct Hcol as (_ & Hcol). specialize (Hcol di Hdi). 
    apply rbind_ok in Hcol. destruct Hcol as (inn & Hin & Hf). apply rbind_ok in Hf. destruct Hf as (a & Ha & Hf). apply rbind_ok in Hf. destruct Hf as (b & Hb & Hf). apply rbind_ok in Hf. destruct Hf as (sd & Hsd & Hf). apply rbind_ok in Hf. destruct Hf as (c & Hc & Hf). apply tor_ok in Ha, Hb, Hc. injection Hf as Hf. rewrite <- Hf.
    pose proof (tail_nan _ _ _ _ _ i Ha _ _ Hb Hc (tinner_square _ _ _ _ Hin) Sq ltac:(cbn; lia) ltac:(cbn; lia) (nan_opp fexp fsin fcos fsum K i ltac:(lia) NK)) as N.
    apply is_column in Hsd. destruct Hsd as (_ & _ & Cs). apply mmul_ok in Ha, Hb, Hc. destruct Ha as (_ & _ & Ra & _), Hb as (_ & _ & Rb & _), Hc as (_ & _ & Rc & Cc & _). cbn in Ra.
    apply (flat_nan fexp fsin fcos fsum); [lia|lia|exact N].
  Qed.
End TN.
