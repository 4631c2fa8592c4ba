(** C19: the diffusion acts elementwise; which shapes of g mean the same. *)
From Coq Require Import String List ZArith Lia Bool.
From Verif Require Import Base.Num Base.Py Base.Arr Lib.ArrLemmas Model.Ext Model.Cdist Model.Score Model.DPFC.
From Verif Require Import Spec.FlowSpec Spec.RunSpec.
From Verif Require Import Lib.FlowLemmas Lib.StepLemmas Lib.RunLemmas Lib.CoreLemmas Lib.StochLemmas Lib.QueryLemmas Props.Flows Props.Runs.
Import ListNotations.
Local Open Scope nat_scope.

Lemma mfold_ext_inv {S A B} (f f' : B -> A -> M S B) (P : B -> Prop) l :
  (forall b a s, P b -> f b a s = f' b a s) -> (forall b a s b' s', P b -> f b a s = (Ok b', s') -> P b') ->
  forall b s, P b -> mfold f l b s = mfold f' l b s.
Proof.
  intros H1 H2. induction l as [|a l IH]; intros b s Hb; [reflexivity|]. cbn [mfold]. apply bind_ext; [now apply H1|].
  intros b' s1 Hb'. apply IH. exact (H2 _ _ _ _ _ Hb Hb').
Qed.
Lemma mfold_inv {S A B} (f : B -> A -> M S B) (P : B -> Prop) l :
  (forall b a s b' s', P b -> f b a s = (Ok b', s') -> P b') ->
  forall b s b' s', P b -> mfold f l b s = (Ok b', s') -> P b'.
Proof.
  intro H. induction l as [|a l IH]; intros b s b' s' Hb Q; cbn [mfold] in Q; [now apply ret_ok in Q as (-> & _)|].
  apply bind_ok in Q. destruct Q as (b1 & s1 & Q1 & Q2). eauto.
Qed.

Section G.
  Context {T S : Type} {O : NumOps T} (E : Ext T S).

  (** two diffusions with the same entries after broadcasting to dim x N *)
  Definition same_entries (dim N : nat) (g g' : mat T) : Prop :=
    (mr g = 1 \/ mr g = dim) /\ (mc g = 1 \/ mc g = N) /\ (mr g' = 1 \/ mr g' = dim) /\ (mc g' = 1 \/ mc g' = N) /\
    forall d n, d < dim -> n < N -> elem g d n = elem g' d n.

  Section Fix.
    Context (dim N : nat).
    Local Notation eqg := (same_entries dim N).
    Lemma elem_map f (g : mat T) d n : (mr g = 1 \/ mr g = dim) -> (mc g = 1 \/ mc g = N) -> d < dim -> n < N -> elem (mmap1 f g) d n = f (elem g d n).
    Proof.
      intros H1 H2 Hd Hn. unfold elem. cbn [mmap1 mk mr mc]. apply get_mmap1.
      - destruct (Nat.eqb_spec (mr g) 1); lia.
      - destruct (Nat.eqb_spec (mc g) 1); lia.
    Qed.
    Lemma eqg_map f g g' : eqg g g' -> eqg (mmap1 f g) (mmap1 f g').
    Proof. intros (A & B & C & D & H). repeat (split; [assumption|]). intros d n Hd Hn. rewrite !elem_map by auto. now rewrite H. Qed.
    Lemma bc_eqg op g g' (B : mat T) : eqg g g' -> mr B = dim -> mc B = N -> bc2 op g B = bc2 op g' B.
    Proof.
      intros (A1 & A2 & A3 & A4 & H) HB1 HB2. unfold bc2. rewrite HB1, HB2.
      assert (K : forall a b, a = 1 \/ a = b -> bok a b = true /\ bdim a b = b).
      { intros a b H0. split.
        - unfold bok. destruct H0 as [->| ->]; [rewrite Nat.eqb_refl|rewrite Nat.eqb_refl]; [now rewrite orb_true_r|reflexivity].
        - unfold bdim. destruct (Nat.eqb_spec a 1); destruct H0; congruence || lia. }
      destruct (K _ _ A1) as (-> & ->), (K _ _ A2) as (-> & ->), (K _ _ A3) as (-> & ->), (K _ _ A4) as (-> & ->). cbn [andb]. f_equal.
      apply mk_ext. intros i j Hi Hj. f_equal. unfold bget, bidx. exact (H i j Hi Hj).
    Qed.

    (** flows of the right shape *)
    Definition shw (A : arr3 T) : Prop := a_d A = dim /\ a_n A = N /\ forall j, mr (slice A j) = dim /\ mc (slice A j) = N.
    Lemma shw_upd (A : arr3 T) j m k : shw A -> mr m = dim -> mc m = N -> shw (Arr3 (a_d A) (a_n A) k (upd (a_s A) j m)).
    Proof.
      intros (H1 & H2 & H3) M1 M2. split; [auto|]. split; [auto|]. intro i. specialize (H3 i). unfold slice in *. cbn [a_d a_n a_s].
      destruct (Nat.eq_dec i j) as [->|Hn].
      - unfold upd. revert H3. generalize (a_s A) as l. clear - M1 M2. induction j; intros [|x l] H3; cbn in *; auto.
      - revert j Hn H3. generalize (a_s A) as l. clear. induction i as [|i IH]; intros [|x l] [|j] Hn H3; cbn in *; auto; try congruence.
        apply IH; auto.
    Qed.
    Lemma shw_setsl (A A' : arr3 T) t m : shw A -> setsl A t m = Ok A' -> shw A'.
    Proof.
      intros HA H. pose proof HA as (H1 & H2 & _). unfold setsl in H. destruct (pyidx (a_k A) t); [|discriminate]. apply rbind_ok in H. destruct H as (m' & Q & H). injection H as <-.
      unfold assign_shape in Q. destruct (_ && _); [|discriminate]. injection Q as <-. apply shw_upd; auto.
    Qed.
    Lemma shw_setrow3 (A A' : arr3 T) d t v : shw A -> setrow3 A d t v = Ok A' -> shw A'.
    Proof.
      intros HA H. pose proof HA as (H1 & H2 & _). unfold setrow3 in H. destruct (pyidx (a_d A) d); [|discriminate]. destruct (pyidx (a_k A) t); [|discriminate]. injection H as <-. apply shw_upd; auto.
    Qed.
    Lemma rfold_inv {A B} (f : B -> A -> res B) (P : B -> Prop) l : (forall b a b', P b -> f b a = Ok b' -> P b') -> forall b b', P b -> rfold f l b = Ok b' -> P b'.
    Proof.
      intro H. induction l as [|a l IH]; intros b b' Hb Q; cbn [rfold] in Q; [now injection Q as <-|]. apply rbind_ok in Q. destruct Q as (b1 & Q1 & Q2). eauto.
    Qed.
    Lemma shw_pin y t (A A' : arr3 T) n : shw A -> pin n y t A = Ok A' -> shw A'.
    Proof.
      intros HA. apply (rfold_inv _ shw); [|exact HA]. intros b a b' Hb H. apply rbind_ok in H. destruct H as (v & _ & H). eapply shw_setrow3; eauto.
    Qed.
    Lemma shw_getsl (A : arr3 T) t m : shw A -> getsl A t = Ok m -> mr m = dim /\ mc m = N.
    Proof. intros (_ & _ & H) Q. unfold getsl in Q. destruct (pyidx (a_k A) t); [|discriminate]. injection Q as <-. apply H. Qed.
    Lemma shw_zeros k : shw (zeros3 dim N k).
    Proof.
      split; [reflexivity|]. split; [reflexivity|]. intro j. unfold slice, zeros3. cbn [a_s a_d a_n]. revert j. induction k; intros [|j]; cbn [repeat nth]; auto.
    Qed.
    Lemma fill_shape d n v (G : mat T) : fill_rows d n v = Ok G -> mr G = d /\ mc G = n.
    Proof. intro H. apply fill_rows_ok in H. destruct H as (_ & H1 & H2 & _). auto. Qed.

    Context (g g' : mat T) (HG : eqg g g').
    Lemma em_eqg fd x t s : em_step E g fd dim N x t s = em_step E g' fd dim N x t s.
    Proof.
      unfold em_step. apply bind_ext; [reflexivity|]. intros fx s1 _. apply bind_ext; [reflexivity|]. intros a s2 _. apply bind_ext; [reflexivity|].
      intros noise s3 Hn. unfold normal in Hn. destruct (x_normal E s2 (nsqrt dt) dim N) as [h s4]. injection Hn as <- <-. now rewrite (bc_eqg nmul g g' (mk dim N h) HG) by reflexivity.
    Qed.
    Lemma fsep_eqg kern m fd guard x t s : mr x = dim -> mc x = N -> f_seperate E kern m g fd guard x t s = f_seperate E kern m g' fd guard x t s.
    Proof.
      intros H1 H2. unfold f_seperate. do 3 (apply bind_ext; [reflexivity|]; intros ? ? _). apply bind_ext; [reflexivity|]. intros G s4 HF.
      apply bind_ext; [reflexivity|]. intros fx s5 _. apply lift_ok in HF. destruct HF as (HF & _). apply fill_shape in HF.
      rewrite (bc_eqg nmul (smul nhalf (msq g)) (smul nhalf (msq g')) G); [reflexivity| |lia|lia]. apply eqg_map, eqg_map, HG.
    Qed.
  End Fix.

  Context (p : params T) (g' : mat T) (HG : same_entries (List.length (p_y1 p)) (p_N p) (p_g p) g') (Hdet : p_det p = true).
  Local Notation dim := (List.length (p_y1 p)).
  Local Notation N := (p_N p).
  Local Notation shp := (shw dim N).

  Lemma otto_body_eqg kern A it s : shp A -> otto_body E p kern A it s = otto_body E (with_g p g') kern A it s.
  Proof.
    intro HA. destruct it as [ti t]. unfold otto_body. cbn [with_g p_y1 p_y2 p_g p_N p_M p_f p_U p_reweight p_brown].
    apply bind_ext; [|reflexivity]. destruct (ti =? 0); [reflexivity|]. apply bind_ext; [reflexivity|]. intros x s1 Hx. apply lift_ok in Hx. destruct Hx as (Hx & _).
    apply (shw_getsl dim N _ _ _ HA) in Hx. destruct Hx as (X1 & X2). apply bind_ext; [|reflexivity]. destruct (ti =? 1).
    - apply em_eqg, HG.
    - unfold det_step. apply bind_ext; [|reflexivity]. apply (fsep_eqg dim N _ _ HG); auto.
  Qed.
  Lemma otto_body_shw kern A it s A' s' : shp A -> otto_body E p kern A it s = (Ok A', s') -> shp A'.
  Proof.
    intros HA H. destruct it as [ti t]. unfold otto_body in H. apply bind_ok in H. destruct H as (Z1 & s1 & H1 & H2).
    assert (HZ : shp Z1).
    { destruct (ti =? 0).
      - apply lift_ok in H1. destruct H1 as (H1 & _). revert H1. apply (rfold_inv _ shp); [|exact HA]. intros b a b' Hb Q. apply rbind_ok in Q. destruct Q as (v & _ & Q).
        apply rbind_ok in Q. destruct Q as (A1 & Q1 & Q). apply (shw_setrow3 _ _ _ _ _ _ _ Hb) in Q1. destruct (p_brown p); [|injection Q as <-; auto].
        apply rbind_ok in Q. destruct Q as (v2 & _ & Q). eapply shw_setrow3; eauto.
      - apply bind_ok in H1. destruct H1 as (x & s2 & _ & H1). apply bind_ok in H1. destruct H1 as (y & s3 & _ & H1). apply lift_ok in H1. destruct H1 as (H1 & _). eapply shw_setsl; eauto. }
    destruct (p_reweight p && (0 <? ti)); [|apply ret_ok in H2; destruct H2 as (-> & _); auto].
    apply lift_ok in H2. destruct H2 as (H2 & _). invok. eapply shw_setsl; eauto.
  Qed.
  Lemma true_body_eqg kern A it s : shp A -> otto_true_body E p kern A it s = otto_true_body E (with_g p g') kern A it s.
  Proof.
    intro HA. destruct it as [ti t]. unfold otto_true_body. cbn [with_g p_y1 p_g p_N p_M p_f_true].
    destruct (ti =? 0); [reflexivity|]. apply bind_ext; [reflexivity|]. intros x s1 Hx. apply lift_ok in Hx. destruct Hx as (Hx & _).
    apply (shw_getsl dim N _ _ _ HA) in Hx. destruct Hx as (X1 & X2). apply bind_ext; [|reflexivity]. destruct (ti =? 1).
    - apply em_eqg, HG.
    - unfold det_step. apply bind_ext; [|reflexivity]. apply (fsep_eqg dim N _ _ HG); auto.
  Qed.
  Lemma true_body_shw kern A it s A' s' : shp A -> otto_true_body E p kern A it s = (Ok A', s') -> shp A'.
  Proof.
    intros HA H. destruct it as [ti t]. unfold otto_true_body in H. destruct (ti =? 0).
    - apply lift_ok in H. destruct H as (H & _). eapply shw_pin; eauto.
    - apply bind_ok in H. destruct H as (x & s2 & _ & H1). apply bind_ok in H1. destruct H1 as (y & s3 & _ & H1). apply lift_ok in H1. destruct H1 as (H1 & _). eapply shw_setsl; eauto.
  Qed.
  Lemma bw_stoch_eqg x t gro s : mr gro = dim -> mc gro = N -> bw_stoch_step E p x t gro s = bw_stoch_step E (with_g p g') x t gro s.
  Proof.
    intros G1 G2. unfold bw_stoch_step. cbn [with_g p_y1 p_g p_N p_f]. do 2 (apply bind_ext; [reflexivity|]; intros ? ? _).
    apply bind_ext. { rewrite (bc_eqg dim N nmul (smul dt (msq (p_g p))) (smul dt (msq g')) gro); auto. apply eqg_map, eqg_map, HG. } intros c s3 _.
    apply bind_ext; [reflexivity|]. intros ac s4 _. apply bind_ext; [reflexivity|].
    intros noise s5 Hn. unfold normal in Hn. destruct (x_normal E s4 (nsqrt dt) dim N) as [h s6]. injection Hn as <- <-. now rewrite (bc_eqg dim N nmul (p_g p) g' (mk dim N h) HG) by reflexivity.
  Qed.
  Lemma bw_det_eqg x t gro gb : mr gro = dim -> mc gro = N -> mr gb = dim -> mc gb = N -> bw_det_step p x t gro gb = bw_det_step (with_g p g') x t gro gb.
  Proof.
    intros. unfold bw_det_step. cbn [with_g p_g p_f]. rewrite (bc_eqg dim N nmul (msq (p_g p)) (msq g') gro); auto; [|apply eqg_map, HG].
    rewrite (bc_eqg dim N nmul (smul nhalf (msq (p_g p))) (smul nhalf (msq g')) gb); auto. apply eqg_map, eqg_map, HG.
  Qed.
  Lemma dens_shape kern Zf B rev G s s' : density_estimation E p kern Zf B rev s = (Ok G, s') -> mr G = dim /\ mc G = N.
  Proof. unfold density_estimation. intro H. do 5 (apply bind_ok in H; destruct H as (? & ? & _ & H)). apply lift_ok in H. destruct H as (H & _). now apply fill_shape in H. Qed.
  Lemma bw_dens_shape kern Zf B rev G s s' : bw_density_estimation E p kern Zf B rev s = (Ok G, s') -> mr G = dim /\ mc G = N.
  Proof. unfold bw_density_estimation. intro H. do 4 (apply bind_ok in H; destruct H as (? & ? & _ & H)). apply lift_ok in H. destruct H as (H & _). now apply fill_shape in H. Qed.
  Lemma bw_body_eqg kern grid Zf B it s : bw_body E p kern grid Zf B it s = bw_body E (with_g p g') kern grid Zf B it s.
  Proof.
    destruct it as [ti t]. unfold bw_body. cbn [with_g p_y1 p_y2 p_det]. destruct (ti =? 0); [reflexivity|].
    apply bind_ext; [reflexivity|]. intros gro s1 Hg. apply dens_shape in Hg. destruct Hg as (G1 & G2). apply bind_ext; [|reflexivity].
    destruct (((ti =? 1) && p_det p) || negb (p_det p)).
    - do 2 (apply bind_ext; [reflexivity|]; intros ? ? _). now apply bw_stoch_eqg.
    - apply bind_ext; [reflexivity|]. intros gb s2 Hb. apply bw_dens_shape in Hb. destruct Hb. do 2 (apply bind_ext; [reflexivity|]; intros ? ? _). now rewrite bw_det_eqg.
  Qed.
  (** deterministic mode: only the entries of g broadcast to dim x N matter, in particular a number, a dim x 1 column and
      a dim x N array with the same entries give the same run (exceptions and random stream included) *)
  Theorem C19_elementwise s : same_outcome (construct E p s) (construct E (with_g p g') s).
  Proof.
    apply same_flows_outcome; try reflexivity. unfold flows_of. cbn [with_g p_y1 p_y2 p_N p_t1 p_t2 p_kern p_det p_reweight p_brown]. rewrite Hdet.
    set (grid := timegrid (p_t1 p) (p_t2 p)). set (kern := kern_used (p_kern p)). set (zeros := zeros3 dim N (List.length grid)).
    apply bind_ext.
    - apply bind_ext.
      + apply (mfold_ext_inv _ _ shp); [apply otto_body_eqg|apply otto_body_shw|apply shw_zeros].
      + intros Z1 s1 _. destruct (p_reweight p && p_brown p); [|reflexivity]. apply bind_ext; [|reflexivity].
        apply (mfold_ext_inv _ _ shp); [apply true_body_eqg|apply true_body_shw|apply shw_zeros].
    - intros [Z1 Zt] s1 _. apply bind_ext; [|reflexivity]. unfold backward_simulation. cbn [with_g p_y1]. apply bind_ext; [|reflexivity].
      apply (mfold_ext_inv _ _ (fun _ => True)); auto. intros. apply bw_body_eqg.
  Qed.
End G.

(** ** the first step, and stochastic mode *)
Section Shapes.
  Context {T S : Type} {O : NumOps T} (E : Ext T S).

  (** deterministic mode, a dim x 1 column: the noise of the first step is scaled coordinate by coordinate *)
  Theorem C19_column p s o s' : construct E p s = (Ok o, s') -> p_det p = true -> p_reweight p = false -> 2 <= List.length (o_grid o) ->
    mr (p_g p) = List.length (p_y1 p) -> mc (p_g p) = 1 ->
    exists F W s1, x_normal E s (nsqrt nmilli) (List.length (p_y1 p)) (p_N p) = (W, s1) /\
      call2 (p_f p) (slice (o_Z o) 0) (nsub (nth 1 (o_grid o) nzero) nmilli) = Ok F /\
      forall d n, d < List.length (p_y1 p) -> n < p_N p ->
        get3 (o_Z o) d n 1 = nadd (nadd (nth d (p_y1 p) nzero) (nmul nmilli (elem F d n))) (nmul (get (p_g p) d 0) (W d n)).
  Proof.
    intros Hc Hd Hr Hk G1 G2. destruct (C06_forward_recurrence E p s o s' Hc Hd ltac:(lia)) as (sg & S0 & H). specialize (H 1 ltac:(lia)).
    rewrite Hr in H. unfold plain_step in H. cbn [Nat.eqb Nat.sub] in H. destruct H as (F & W & HF & HW & HE).
    pose proof (C05_shape E p s o s' Hc) as (SZ & _). apply has_shape_sh in SZ. destruct (sh_slice _ _ _ _ 0 SZ ltac:(lia)) as (_ & X1 & X2).
    rewrite X1, X2 in *. rewrite S0 in HW. exists F, W, (sg 1). split; [exact HW|]. split; [exact HF|]. intros d n Hdd Hn. unfold get3. rewrite HE by auto.
    pose proof (C03_forward_starts_at_y1 E p s o s' Hc Hd Hk) as H0. destruct SZ as (_ & D & Nn & _). unfold all_at in H0. unfold get3 in H0. rewrite H0 by congruence.
    do 2 f_equal. unfold elem. rewrite G2. cbn [Nat.eqb]. destruct (Nat.eqb_spec (mr (p_g p)) 1); [|reflexivity]. f_equal. lia.
  Qed.

  Lemma stoch_g_forward p s grid Z s' : forward_sampling E p grid (zeros3 (List.length (p_y1 p)) (p_N p) (List.length grid)) s = (Ok Z, s') ->
    2 <= List.length grid -> 1 <= p_N p -> fits (p_g p) 1 (List.length (p_y1 p)).
  Proof.
    intros H Hk HN. destruct grid as [|t0 [|t1 grid]]; [simpl in Hk; lia..|]. set (k := List.length (t0 :: t1 :: grid)) in *. set (dim := List.length (p_y1 p)) in *.
    unfold forward_sampling in H. apply bind_ok in H. destruct H as (Z2 & s2 & H & _).
    rewrite (enumerate_cons _ _ nzero) in H. cbn [mfold List.length seq map] in H.
    apply bind_ok in H. destruct H as (Z0 & sa & H0 & H). apply bind_ok in H. destruct H as (Z1 & sb & H1 & _).
    assert (HZ0 : shw dim (p_N p) Z0).
    { unfold stoch_body in H0. cbn [Nat.eqb] in H0. apply lift_ok in H0. destruct H0 as (H0 & _). invok. eapply shw_setrow3; [|exact H0]. eapply shw_setrow3; [|eassumption]. apply shw_zeros. }
    unfold stoch_body in H1. cbn [Nat.eqb] in H1. apply bind_ok in H1. destruct H1 as (Zp & sp & H1 & _). destruct (p_N p) as [|N'] eqn:EN; [lia|]. cbn [seq mfold] in H1.
    apply bind_ok in H1. destruct H1 as (Zq & sq & H1 & _). unfold stoch_particle in H1. invok.
    unfold setcol3 in H1. destruct (pyidx (a_n Z0) (Z.of_nat 0)); [|discriminate]. destruct (pyidx (a_k Z0) (Z.of_nat 1)); [|discriminate]. invok.
    match goal with H : assign_shape 1 _ ?y = Ok _ |- _ => apply assign_shape_ok in H; destruct H as (_ & _ & _ & Fr & Fc & _); destruct HZ0 as (D & _ & _); rewrite D in Fc;
      assert (F : fits y 1 dim) by (split; auto) end.
    match goal with H : bc2 nadd _ ?gn = Ok ?y, H2 : bc2 nmul (p_g p) _ = Ok ?gn |- _ =>
      destruct (bc2_fit _ _ _ _ _ _ H F) as (_ & F2 & _); destruct (bc2_fit _ _ _ _ _ _ H2 F2) as (F3 & _); exact F3 end.
  Qed.
  Lemma bw_g p s kern grid Zf B s' : backward_simulation E p kern grid Zf (zeros3 (List.length (p_y1 p)) (p_N p) (List.length grid)) s = (Ok B, s') ->
    3 <= List.length grid -> fits (p_g p) (List.length (p_y1 p)) (p_N p).
  Proof.
    intros H Hk. unfold backward_simulation in H. apply bind_ok in H. destruct H as (B1 & s1 & H & _).
    pose proof (init_length grid) as L. set (zs := zeros3 _ _ _) in H. assert (HB : shw (List.length (p_y1 p)) (p_N p) zs) by apply shw_zeros. clearbody zs.
    destruct (init grid) as [|t0 [|t1 gr]]; [cbn [List.length] in L; lia..|].
    rewrite (enumerate_cons _ _ nzero) in H. cbn [mfold List.length seq map] in H.
    apply bind_ok in H. destruct H as (B0 & sa & H0 & H). apply bind_ok in H. destruct H as (B2 & sb & H1 & _).
    assert (HB0 : shw (List.length (p_y1 p)) (p_N p) B0) by (unfold bw_body in H0; cbn [Nat.eqb] in H0; apply lift_ok in H0; destruct H0 as (H0 & _); eapply shw_pin; eauto).
    unfold bw_body in H1. cbn [Nat.eqb] in H1. apply bind_ok in H1. destruct H1 as (gro & sc & _ & H1). apply bind_ok in H1. destruct H1 as (y & sd & Hy & H1).
    apply lift_ok in H1. destruct H1 as (H1 & _). unfold setsl in H1. destruct (pyidx _ _); [|discriminate]. apply rbind_ok in H1. destruct H1 as (m & Hm & _).
    apply assign_shape_ok in Hm. destruct Hm as (_ & _ & _ & Fr & Fc & _). destruct HB0 as (D & Nn & _). rewrite D in Fr. rewrite Nn in Fc.
    assert (F : fits y (List.length (p_y1 p)) (p_N p)) by (split; auto).
    replace (((true && p_det p) || negb (p_det p))%bool) with true in Hy by (now destruct (p_det p)).
    unfold bw_stoch_step in Hy. invok.
    match goal with H : bc2 nadd _ ?gn = Ok y, H2 : bc2 nmul (p_g p) _ = Ok ?gn |- _ =>
      destruct (bc2_fit _ _ _ _ _ _ H F) as (_ & F2 & _); destruct (bc2_fit _ _ _ _ _ _ H2 F2) as (F3 & _); exact F3 end.
  Qed.

  (** stochastic mode: the forward pass reads g as a row (one entry per coordinate), the backward pass as an array of
      dim x N; so only a number works, or N = dim and a row whose entries mean coordinates in one pass and particles in
      the other.  A dim x 1 column, fine in deterministic mode, makes construction raise *)
  Theorem C19_stochastic_shape p s o s' : construct E p s = (Ok o, s') -> p_det p = false -> 3 <= List.length (o_grid o) -> 1 <= p_N p ->
    mr (p_g p) = 1 /\ (mc (p_g p) = 1 \/ (mc (p_g p) = List.length (p_y1 p) /\ p_N p = List.length (p_y1 p))).
  Proof.
    intros Hc Hd Hk HN. pose proof (construct_ok E p s o s' Hc) as (_ & Ek & Eg & s1 & s2 & HZ & HB). rewrite Hd in HZ. rewrite Eg in Hk.
    destruct HZ as (HZ & _). apply stoch_g_forward in HZ; [|lia|lia]. apply bw_g in HB; [|lia]. destruct HZ as (R1 & C1), HB as (R2 & C2). lia.
  Qed.
End Shapes.

(** *** concrete runs: g = 1 as a number, as a column and as a 2 x 4 array; a column (1, 1/2); stochastic mode *)
From Verif Require Import Run.Toy.
Definition gcol : mat Z := mk 2 1 (fun _ _ => one6).
Definition gfull : mat Z := mk 2 4 (fun _ _ => one6).
Definition gskew : mat Z := mk 2 1 (fun d _ => if d =? 0 then one6 else (one6 / 2)%Z).
Example W19_same : same_entries 2 4 (p_g toy_bridge) gcol /\ same_entries 2 4 (p_g toy_bridge) gfull /\ p_det toy_bridge = true /\
  is_ok (construct ToyExt (with_g toy_bridge gcol) 7%Z) = true.
Proof.
  assert (H : forall d n, d < 2 -> n < 4 -> elem (p_g toy_bridge) d n = one6) by (intros; reflexivity).
  split; [|split; [|split; [reflexivity|vm_compute; reflexivity]]]; (split; [left; reflexivity|split; [left; reflexivity|split; [right; reflexivity|split; [cbn; auto|]]]]).
  - intros d n Hd Hn. rewrite H by auto. unfold elem, gcol. cbn [mk mr mc Nat.eqb]. now rewrite get_mk by lia.
  - intros d n Hd Hn. rewrite H by auto. unfold elem, gfull. cbn [mk mr mc Nat.eqb]. now rewrite get_mk by lia.
Qed.
Example W19_column : is_ok (construct ToyExt (with_g toy_det gskew) 7%Z) = true /\ is_ok (construct ToyExt toy_stoch 7%Z) = true /\
  is_ok (construct ToyExt (with_g toy_stoch gskew) 7%Z) = false.
Proof. vm_compute. auto. Qed.
