(** The torch kernels and score estimates in other units and with another origin (no modelling content). *)
From Coq Require Import String List ZArith Reals Lra Lia Bool.
From Verif Require Import Base.Num Base.Py Base.Arr Lib.ArrLemmas Model.Ext Model.Cdist Model.Score Model.ScoreTorch.
From Verif Require Import Spec.FlowSpec Spec.RealSpec Spec.AffineSpec Lib.RSum Lib.RBase Lib.Sim Lib.AffineLemmas Lib.AffineScore.
Import ListNotations.
Local Open Scope string_scope.
Local Open Scope R_scope.

Lemma so_tor {A B} (P : A -> B -> Prop) r r' : same_outcome P r r' -> same_outcome P (tor r) (tor r').
Proof. destruct r as [a|e], r' as [a'|e']; cbn [same_outcome]; intro H; try contradiction; [exact H|]. subst e'. destruct e; reflexivity. Qed.
Lemma tbc_mul a b A A' B B' : times a A A' -> times b B B' -> same_outcome (times (a * b)) (tbc2 nmul A B) (tbc2 nmul A' B').
Proof. intros. now apply so_tor, times_bc_mul. Qed.
Lemma tbc_sub a A A' B B' : times a A A' -> times a B B' -> same_outcome (times a) (tbc2 nsub A B) (tbc2 nsub A' B').
Proof. intros. now apply so_tor, times_bc_sub. Qed.
Lemma tbc_add a A A' B B' : times a A A' -> times a B B' -> same_outcome (times a) (tbc2 nadd A B) (tbc2 nadd A' B').
Proof. intros. now apply so_tor, times_bc_add. Qed.
Lemma tmmul_times a b A A' B B' : times a A A' -> times b B B' -> same_outcome (times (a * b)) (tmmul A B) (tmmul A' B').
Proof. intros. now apply so_tor, times_mmul. Qed.
Lemma so_rmapM_seq {A A'} (P : A -> A' -> Prop) f f' n : (forall i, (i < n)%nat -> same_outcome P (f i) (f' i)) ->
  same_outcome (Forall2 P) (rmapM f (seq 0 n)) (rmapM f' (seq 0 n)).
Proof.
  intro H. apply (so_rmapM (fun i j => i = j /\ (i < n)%nat)).
  - apply Forall2_refl. intros a Ha. apply in_seq in Ha. split; [auto|lia].
  - intros a a' _ (<- & Ha). now apply H.
Qed.

Section TScore.
  Context {S : Type} (E : Ext R S) (al : R) (v : nat -> R) (Hal : 0 < al).
  Notation pts := (points_image al v).

  (** lengthscales *)
  Definition lrel (l l' : lscale R) : Prop := match l, l' with LScal a, LScal a' => a' = al * a | LVec ls, LVec ls' => ltimes al ls ls' | _, _ => False end.
  Lemma diff3_aff X X' Y Y' i j k : pts X X' -> pts Y Y' -> mc X = mc Y -> (i < mr X)%nat -> (j < mr Y)%nat -> (k < mc X)%nat ->
    diff3 X' Y' i j k = al * diff3 X Y i j k.
  Proof.
    intros (X1 & X2 & X3) (Y1 & Y2 & Y3) Hc Hi Hj Hk. unfold diff3. rewrite X2, Y2, <- Hc, bidx_lt by auto. rewrite X3, Y3 by lia. cbn. ring.
  Qed.
  Lemma ls_nth ls ls' i : ltimes al ls ls' -> (i < List.length ls)%nat -> nth i ls' 0 = al * nth i ls 0.
  Proof. intros H Hi. apply (Forall2_nth' (fun a a' => a' = al * a) ls ls' 0 0 i H Hi). Qed.
  Lemma sq_quot a b : nsq (al * a) / nsq (al * b) = nsq a / nsq b.
  Proof. unfold nsq. cbn. unfold Rdiv. rewrite !Rinv_mult. generalize (/ b). intro. field. lra. Qed.
  Lemma lin_quot a b : al * a / nsq (al * b) = / al * (a / nsq b).
  Proof. unfold nsq. cbn. unfold Rdiv. rewrite !Rinv_mult. generalize (/ b). intro. field. lra. Qed.
  Lemma rbf_vals_aff l l' X X' Y Y' : lrel l l' -> pts X X' -> pts Y Y' -> mc X = mc Y -> rbf_vals l' X' Y' = rbf_vals l X Y.
  Proof.
    intros Hl HX HY Hc. pose proof HX as (X1 & X2 & _). pose proof HY as (Y1 & Y2 & _). unfold rbf_vals. rewrite X1, X2, Y1, Y2, <- Hc, bok_refl, bdim_refl.
    destruct l as [a|ls], l' as [a'|ls']; cbn [lrel] in Hl; try contradiction.
    - subst a'. f_equal. apply mk_ext. intros i j Hi Hj. f_equal. f_equal. rewrite !nsum_seq. cbn [ndiv ROps]. rewrite <- !sumn_div. apply sumn_ext. intros k Hk.
      rewrite (diff3_aff X X' Y Y') by auto. apply sq_quot.
    - pose proof (Forall2_length _ _ _ Hl) as HL. rewrite <- HL. destruct (bok (mc X) (List.length ls)) eqn:Hb; [|reflexivity]. f_equal. apply mk_ext. intros i j Hi Hj. f_equal. f_equal.
      rewrite !nsum_seq. apply sumn_ext. intros k Hk. cbn [ndiv ROps]. rewrite (diff3_aff X X' Y Y') by eauto using bidx_bound_l.
      change nzero with 0. rewrite (ls_nth ls ls') by eauto using bidx_bound_r. apply sq_quot.
  Qed.
  (** the class RBF and its gradient *)
  Definition rbf_rel (o o' : RBF R) : Prop := lrel (rb_l o) (rb_l o') /\ rb_multil o' = rb_multil o /\ rb_sv o' = rb_sv o /\ rb_K o' = rb_K o.
  Lemma RBF_init_aff l l' sv m : lrel l l' -> same_outcome rbf_rel (RBF_init l sv m) (RBF_init l' sv m).
  Proof.
    intro H. unfold RBF_init. destruct l as [a|ls], l' as [a'|ls']; cbn [lrel] in H; try contradiction; destruct m; try reflexivity.
    - cbn. unfold rbf_rel. cbn. auto.
    - cbn. unfold rbf_rel. cbn. auto.
    - destruct H as [|x x' l l' Hx H]; [reflexivity|]. destruct H as [|y y' l l' Hy H]; cbn; unfold rbf_rel; cbn; [auto|]. split; [|auto]. repeat constructor; auto.
  Qed.
  Lemma rbf_kvals_aff m l l' X X' Y Y' : lrel l l' -> pts X X' -> pts Y Y' -> mc X = mc Y -> rbf_kvals m l' X' Y' = rbf_kvals m l X Y.
  Proof.
    intros Hl HX HY Hc. destruct m; [now apply rbf_vals_aff|]. pose proof Hl as Hl2. destruct l as [a|ls], l' as [a'|ls']; cbn [lrel] in Hl; try contradiction; [now apply rbf_vals_aff|].
    pose proof HX as (X1 & X2 & _). pose proof HY as (Y1 & Y2 & _). pose proof (Forall2_length _ _ _ Hl) as HL. cbn [rbf_kvals]. unfold rbf_cols. rewrite X1, X2, Y1, Y2, <- Hc, <- HL, bok_refl, bdim_refl.
    cbn [andb]. destruct (bok (mr Y) (List.length ls)) eqn:Hb; [|reflexivity]. f_equal. apply mk_ext. intros i j Hi Hj. f_equal. f_equal. rewrite !nsum_seq. cbn [ndiv ROps]. rewrite <- !sumn_div. apply sumn_ext. intros k Hk.
    rewrite (diff3_aff X X' Y Y') by eauto using bidx_bound_l. change nzero with 0. rewrite (ls_nth ls ls') by eauto using bidx_bound_r. apply sq_quot.
  Qed.
  Lemma RBF_Kernel_aff o o' X X' Y Y' : rbf_rel o o' -> pts X X' -> pts Y Y' -> mc X = mc Y ->
    same_outcome (fun r r' => fst r' = fst r /\ rbf_rel (snd r) (snd r')) (RBF_Kernel o X Y) (RBF_Kernel o' X' Y').
  Proof.
    intros (H1 & H2 & H3 & H4) HX HY Hc. unfold RBF_Kernel. rewrite H2, (rbf_kvals_aff _ _ _ X X' Y Y' H1 HX HY Hc), H3. destruct (rbf_kvals (rb_multil o) (rb_l o) X Y); [|reflexivity].
    cbn. split; [auto|]. unfold rbf_rel. cbn. auto.
  Qed.
  Definition times3 (k : R) (A A' : arr3 R) : Prop := a_d A' = a_d A /\ a_n A' = a_n A /\ a_k A' = a_k A /\ List.length (a_s A) = a_k A /\
    Forall2 (fun m m' => times k m m' /\ mr m = a_d A /\ mc m = a_n A) (a_s A) (a_s A').
  Lemma gradient_aff o o' X X' Y Y' : rbf_rel o o' -> pts X X' -> pts Y Y' -> mc X = mc Y ->
    same_outcome (times3 (/ al)) (RBF_gradient_X o X Y) (RBF_gradient_X o' X' Y').
  Proof.
    intros (H1 & H2 & H3 & H4) HX HY Hc. pose proof HX as (X1 & X2 & _). pose proof HY as (Y1 & Y2 & _). unfold RBF_gradient_X. rewrite X1, X2, Y1, Y2, <- Hc, bok_refl, bdim_refl, H4.
    eapply so_bind with (P := Forall2 (fun m m' => times (/ al) m m' /\ mr m = mr X /\ mc m = mr Y)).
    - destruct (rb_l o) as [a|ls], (rb_l o') as [a'|ls']; cbn [lrel] in H1; try contradiction.
      + subst a'. cbn [same_outcome]. apply Forall2_seq. intros k Hk. split; [|split; reflexivity]. apply times_mk. intros i j Hi Hj.
        rewrite (diff3_aff X X' Y Y') by auto. apply lin_quot.
      + rewrite <- (Forall2_length _ _ _ H1). destruct (bok (mc X) (List.length ls)) eqn:Hb; [|reflexivity]. cbn [same_outcome]. apply Forall2_seq. intros k Hk. split; [|split; reflexivity].
        apply times_mk. intros i j Hi Hj. rewrite (diff3_aff X X' Y Y') by eauto using bidx_bound_l. change nzero with 0. rewrite (ls_nth ls ls') by eauto using bidx_bound_r. apply lin_quot.
    - intros sl sl' Hsl. destruct (rb_K o) as [K|]; [|reflexivity]. destruct (bok (mr X) (mr K)) eqn:B1; cbn [andb]; [|reflexivity]. destruct (bok (mr Y) (mc K)) eqn:B2; [|reflexivity].
      cbn [same_outcome]. pose proof (Forall2_length _ _ _ Hsl) as HL. split; [reflexivity|]. split; [reflexivity|]. split; [cbn; auto|]. split; [cbn; now rewrite map_length|]. cbn [a_s a_d a_n].
      clear HL. induction Hsl as [|m m' sl sl' (Hm & Rm & Cm) Hsl IH]; cbn [map]; constructor; [|exact IH]. split; [|split; reflexivity].
      apply times_mk. intros i j Hi Hj. destruct Hm as (M1 & M2 & M3). unfold bget. rewrite M1, M2, M3; [cbn; ring| |].
      + rewrite Rm. eauto using bidx_bound_l.
      + rewrite Cm. eauto using bidx_bound_l.
  Qed.
  Lemma sum0_3_aff k G G' : times3 k G G' -> times k (sum0_3 (Arr3 (a_d G) (a_n G) (a_k G) (map mopp (a_s G)))) (sum0_3 (Arr3 (a_d G') (a_n G') (a_k G') (map mopp (a_s G')))).
  Proof.
    intros (H1 & H2 & H3 & H4 & H5). unfold sum0_3. cbn [a_n a_k]. rewrite H2, H3. apply times_mk. intros j d Hj Hd. unfold slice. cbn [a_s a_d a_n].
    pose proof (Forall2_nth' _ _ _ (mzeros 0 0) (mzeros 0 0) d H5 ltac:(lia)) as (Q & Q1 & Q2). pose proof (Forall2_length _ _ _ H5) as HL.
    rewrite (nth_indep (map mopp (a_s G)) _ (mopp (mzeros 0 0))) by (rewrite map_length; lia). rewrite (nth_indep (map mopp (a_s G')) _ (mopp (mzeros 0 0))) by (rewrite map_length; lia).
    rewrite !(map_nth mopp). apply times_mopp in Q. destruct Q as (R1 & R2 & R3). unfold col. rewrite R1, !nsum_seq, <- sumn_scal. apply sumn_ext. intros i Hi. apply R3; [exact Hi|]. cbn. lia.
  Qed.
  (** the estimator *)
  Definition tlrel (l l' : tlen R) : Prop := match l, l' with
    | TFloat a, TFloat a' => a' = al * a | TTens0 a, TTens0 a' => a' = al * a | TSeq a, TSeq a' => ltimes al a a' | TTens1 a, TTens1 a' => ltimes al a a' | _, _ => False end.
  Lemma tl_lscale_aff l l' : tlrel l l' -> lrel (tl_lscale l) (tl_lscale l').
  Proof. destruct l, l'; cbn; auto; contradiction. Qed.
  Lemma tl_multil_aff l l' : tlrel l l' -> tl_multil l' = tl_multil l.
  Proof. destruct l, l'; cbn; try contradiction; auto. intro H. now rewrite (Forall2_length _ _ _ H). Qed.
  Definition tprep_rel (P P' : bool * mat R * mat R * mat R * mat R) : Prop :=
    match P, P' with (m, a, b, c, s), (m', a', b', c', s') => m' = m /\ a' = a /\ b' = b /\ c' = c /\ times (/ al) s s' end.
  Lemma tprep_aff X X' Zp Zp' l l' : pts X X' -> pts Zp Zp' -> mc X = mc Zp -> tlrel l l' -> same_outcome tprep_rel (tprep E X Zp l) (tprep E X' Zp' l').
  Proof.
    intros HX HZ Hc Hl. unfold tprep. rewrite (tl_multil_aff l l' Hl). pose proof (tl_lscale_aff l l' Hl) as Hls. pose proof HZ as (Z1 & _). rewrite Z1.
    eapply so_bind; [apply so_eq; reflexivity|]. intros m _ <-. eapply so_bind; [apply RBF_init_aff, Hls|]. intros K0 K0' HK0.
    eapply so_bind; [apply (RBF_Kernel_aff K0 K0' X X' Zp Zp'); auto|]. intros [kxz K1] [kxz' K1'] (Q1 & Q2). cbn [fst snd] in Q1, Q2. subst kxz'.
    eapply so_bind; [apply RBF_init_aff, Hls|]. intros Kz Kz' HKz. eapply so_bind; [apply (RBF_Kernel_aff Kz Kz' Zp Zp' Zp Zp'); auto|]. intros [ks K2] [ks' K2'] (Q3 & _). cbn [fst] in Q3. subst ks'.
    eapply so_bind; [apply so_eq; reflexivity|]. intros a _ <-. eapply so_bind; [apply so_eq; reflexivity|]. intros i _ <-. eapply so_bind; [apply so_eq; reflexivity|]. intros A _ <-.
    eapply so_bind; [apply (gradient_aff K1 K1' X X' Zp Zp'); auto|]. intros G G' HG. cbn [same_outcome tprep_rel]. repeat (split; [reflexivity|]). now apply sum0_3_aff.
  Qed.
  Lemma tscore_aff C kern X X' Zp Zp' l l' : pts X X' -> pts Zp Zp' -> mc X = mc Zp -> tlrel l l' ->
    same_outcome (fun A A' => times (/ al) A A' /\ mr A = mr X /\ mc A = mc Zp) (torched_score_function_multid_seperate_all_dims E X Zp l C kern) (torched_score_function_multid_seperate_all_dims E X' Zp' l' C kern).
  Proof.
    intros HX HZ Hc Hl. unfold torched_score_function_multid_seperate_all_dims. pose proof HZ as (Z1 & Z2 & _). pose proof HX as (X1 & X2 & _). rewrite Z1, Z2, X1.
    eapply so_bind; [apply (tprep_aff X X' Zp Zp' l l'); auto|]. intros [[[[m a] b] c] s] [[[[m' a'] b'] c'] s'] (-> & -> & -> & -> & Hs).
    eapply so_bind; [apply (so_rmapM_seq (ltimes (/ al)))|].
    - intros di Hdi. eapply so_bind; [apply so_eq; reflexivity|]. intros inn _ <-. eapply so_bind; [apply so_eq; reflexivity|]. intros u _ <-. eapply so_bind; [apply so_eq; reflexivity|]. intros w _ <-.
      eapply so_bind with (P := fun q q' => times (/ al) q q' /\ mc q = 1%nat).
      + unfold tcolumn, column. destruct Hs as (S1 & S2 & S3). rewrite S1, S2. destruct (di <? mc s)%nat eqn:Hd; [|reflexivity]. apply Nat.ltb_lt in Hd. cbn [same_outcome]. split; [|reflexivity].
        apply times_mk. intros i j Hi _. now apply S3.
      + intros q q' (Hq & Hq1). eapply so_bind; [apply so_tor, (times_mmul_mc 1 (/ al)); [apply times_refl|exact Hq]|]. intros r r' (Hr & Hr1). cbn [same_outcome]. apply times_flat; [|lia].
        eapply times_ext; [|exact Hr]. ring.
    - intros cols cols' Hcols. cbn [same_outcome]. split; [|split; reflexivity]. apply times_mk. intros i d Hi Hd.
      destruct (Nat.lt_ge_cases d (List.length cols)) as [H|H].
      + pose proof (Forall2_nth' _ _ _ [] [] d Hcols H) as Q. destruct (Nat.lt_ge_cases i (List.length (nth d cols []))) as [Hl'|Hl'].
        * apply (Forall2_nth' (fun a a' => a' = / al * a) _ _ 0 0 i Q Hl').
        * rewrite !nth_overflow by (rewrite <- ?(Forall2_length _ _ _ Q); auto). cbn. ring.
      + rewrite (nth_overflow cols), (nth_overflow cols') by (rewrite <- ?(Forall2_length _ _ _ Hcols); auto). destruct i; cbn; ring.
  Qed.
  Lemma tKsz_aff m Zp Zp' l l' kern t x x' : pts Zp Zp' -> pts x x' -> mc x = mc Zp -> tlrel l l' -> tKsz m Zp' l' kern t x' = tKsz m Zp l kern t x.
  Proof.
    intros HZ Hx Hc Hl. unfold tKsz. destruct (String.eqb kern "RBF"); [|reflexivity]. pose proof (tl_lscale_aff l l' Hl) as Hls. destruct m.
    - destruct l, l'; cbn in Hl; try contradiction; try reflexivity; apply rbf_vals_aff; auto.
    - destruct t; [reflexivity|]. destruct (tl_lscale l) as [a|ls], (tl_lscale l') as [a'|ls']; cbn [lrel] in Hls; try contradiction; [apply rbf_vals_aff; auto|].
      destruct Hls as [|y y' ls ls' Hy Hls]; [apply rbf_vals_aff; auto; constructor|]. destruct Hls; apply rbf_vals_aff; auto; cbn; auto. repeat (constructor; auto).
  Qed.
  Lemma tscore_fun_aff C kern X X' Zp Zp' l l' : pts X X' -> pts Zp Zp' -> mc X = mc Zp -> tlrel l l' ->
    same_outcome (fun fn fn' => forall t x x', pts x x' -> mc x = mc Zp -> same_outcome (times (/ al)) (fn t x) (fn' t x'))
      (torched_score_function_multid_seperate_all_dims_fun E X Zp l C kern) (torched_score_function_multid_seperate_all_dims_fun E X' Zp' l' C kern).
  Proof.
    intros HX HZ Hc Hl. unfold torched_score_function_multid_seperate_all_dims_fun. pose proof HZ as (Z1 & Z2 & _). rewrite Z1.
    eapply so_bind; [apply (tprep_aff X X' Zp Zp' l l'); auto|]. intros [[[[m a] b] c] s] [[[[m' a'] b'] c'] s'] (-> & -> & -> & -> & Hs). cbn [same_outcome]. intros t x x' Hx Hcx.
    rewrite (tKsz_aff m Zp Zp' l l' kern t x x') by auto.
    eapply so_bind; [apply so_eq; reflexivity|]. intros k _ <-. eapply so_bind; [apply so_eq; reflexivity|]. intros inn _ <-. eapply so_bind; [apply so_eq; reflexivity|]. intros u _ <-.
    eapply so_bind; [apply so_eq; reflexivity|]. intros w _ <-. rewrite <- (Rmult_1_l (/ al)). apply tmmul_times; [apply times_refl|exact Hs].
  Qed.
End TScore.
