(** The steps and loops of the class in other units and with another origin (no modelling content). *)
From Coq Require Import String List ZArith Reals Lra Lia Bool.
From Verif Require Import Base.Num Base.Py Base.Arr Lib.ArrLemmas Model.Ext Model.Cdist Model.Reweight Model.Score Model.DPFC.
From Verif Require Import Spec.FlowSpec Spec.RealSpec Spec.Contracts Spec.AffineSpec Lib.FlowLemmas Lib.StepLemmas Lib.RSum Lib.RBase Lib.ReweightLemmas Lib.Sim Lib.AffineLemmas Lib.AffineScore.
Import ListNotations.
Local Open Scope string_scope.
Local Open Scope R_scope.

(** lists related position by position *)
Inductive F2i {A B} (Q : nat -> A -> B -> Prop) : nat -> list A -> list B -> Prop :=
| F2i_nil k : F2i Q k [] []
| F2i_cons k a b l l' : Q k a b -> F2i Q (Datatypes.S k) l l' -> F2i Q k (a :: l) (b :: l').
Lemma F2i_length {A B} (Q : nat -> A -> B -> Prop) k l l' : F2i Q k l l' -> List.length l' = List.length l.
Proof. induction 1; cbn; auto. Qed.
Lemma F2i_nth {A B} (Q : nat -> A -> B -> Prop) k l l' d d' i : F2i Q k l l' -> (i < List.length l)%nat -> Q (k + i)%nat (nth i l d) (nth i l' d').
Proof.
  intro H. revert i. induction H; intros i Hi; cbn in Hi; [lia|]. destruct i; [now rewrite Nat.add_0_r|]. cbn [nth].
  replace (k + Datatypes.S i)%nat with (Datatypes.S k + i)%nat by lia. apply IHF2i. lia.
Qed.
Lemma so_rmapM_i {A B} (Q : nat -> A -> B -> Prop) f f' n k : (forall i, (k <= i < k + n)%nat -> same_outcome (Q i) (f i) (f' i)) ->
  same_outcome (fun l l' => F2i Q k l l' /\ List.length l = n) (rmapM f (seq k n)) (rmapM f' (seq k n)).
Proof.
  revert k. induction n; intros k H; cbn [seq rmapM]. { cbn. split; [constructor|reflexivity]. }
  eapply so_bind; [apply H; lia|]. intros a b Hab. eapply so_bind; [apply IHn; intros; apply H; lia|]. intros l l' (Hl & Hn).
  cbn. split; [now constructor|congruence].
Qed.
Lemma sim_mmap_i {S A A' B B'} (P : nat -> A -> A' -> Prop) (Q : nat -> B -> B' -> Prop) (f : A -> M S B) f' l l' k :
  F2i P k l l' -> (forall i a a', P i a a' -> sim (Q i) (f a) (f' a')) -> sim (fun r r' => F2i Q k r r' /\ List.length r = List.length l) (mmap f l) (mmap f' l').
Proof.
  intros H K. induction H as [|k a a' l l' Ha Hl IH]; cbn [mmap]. { apply sim_ret. split; [constructor|reflexivity]. }
  eapply sim_bind; [apply K; exact Ha|]. intros b b' Hb. eapply sim_bind; [apply IH|]. intros r r' (Hr & Hn). apply sim_ret. split; [now constructor|cbn; congruence].
Qed.

Section Steps.
  Context {S : Type} (E : Ext R S) (al c : R) (v : nat -> R) (Hal : 0 < al) (HU : uniform_affine E).
  Notation ens := (ensemble_image al v).
  Notation pts := (points_image al v).
  Context (dim N : nat).

  Lemma own_bnds_aff x x' : ens x x' ->
    same_outcome (fun l l' => F2i (fun i (b b' : R * R) => fst b' = al * fst b + v i /\ snd b' = al * snd b + v i) 0 l l' /\ List.length l = mr x) (own_bnds x) (own_bnds x').
  Proof.
    intro H. pose proof H as (H1 & _). unfold own_bnds. rewrite H1. apply so_rmapM_i. intros i Hi.
    eapply so_bind; [apply (lmin_aff al Hal (v i)), ens_row; [exact H|lia]|]. intros a a' Ha.
    eapply so_bind; [apply (lmax_aff al Hal (v i)), ens_row; [exact H|lia]|]. intros b b' Hb. cbn. auto.
  Qed.
  Lemma inter_bnd_aff z z' b b' i : ens z z' -> ens b b' -> (i < mr z)%nat -> (i < mr b)%nat ->
    same_outcome (fun (b b' : R * R) => fst b' = al * fst b + v i /\ snd b' = al * snd b + v i) (inter_bnd z b i) (inter_bnd z' b' i).
  Proof.
    intros Hz Hb Hi Hi'. unfold inter_bnd.
    eapply so_bind; [apply (lmin_aff al Hal (v i)), ens_row; [exact Hz|auto]|]. intros a1 a1' ->.
    eapply so_bind; [apply (lmin_aff al Hal (v i)), ens_row; [exact Hb|auto]|]. intros a2 a2' ->.
    eapply so_bind; [apply (lmax_aff al Hal (v i)), ens_row; [exact Hz|auto]|]. intros a3 a3' ->.
    eapply so_bind; [apply (lmax_aff al Hal (v i)), ens_row; [exact Hb|auto]|]. intros a4 a4' ->.
    cbn [same_outcome fst snd]. rewrite !pymax_R, !pymin_R, Rmax_aff, Rmin_aff by auto. auto.
  Qed.
  Lemma inter_bnds_aff d z z' b b' : ens z z' -> ens b b' -> (d <= mr z)%nat -> (d <= mr b)%nat ->
    same_outcome (fun l l' => F2i (fun i (b b' : R * R) => fst b' = al * fst b + v i /\ snd b' = al * snd b + v i) 0 l l' /\ List.length l = d) (inter_bnds d z b) (inter_bnds d z' b').
  Proof. intros Hz Hb Hi Hi'. unfold inter_bnds. apply so_rmapM_i. intros i Hi''. apply inter_bnd_aff; auto; lia. Qed.
  Lemma plot_guard_ok d (l : list (R * R)) : plot_guard d l = Ok tt.
  Proof. reflexivity. Qed.

  Lemma uniform_aff i m (b b' : R * R) : fst b' = al * fst b + v i /\ snd b' = al * snd b + v i ->
    sim (fun l l' => affl al (v i) l l' /\ List.length l = m) (uniform E (fst b) (snd b) m) (uniform E (fst b') (snd b') m).
  Proof.
    intros (-> & ->) s. unfold uniform. pose proof (HU s al (v i) (fst b) (snd b) m Hal) as H.
    destruct (x_uniform E s (fst b) (snd b) m) as [[h|e] s1], (x_uniform E s (al * fst b + v i) (al * snd b + v i) m) as [[h'|e'] s1']; try contradiction; destruct H as (-> & H).
    - cbn [fst snd same_outcome]. split; [|reflexivity]. split; [apply Forall2_seq; intros; now apply H|now rewrite map_length, seq_length].
    - cbn. auto.
  Qed.
  Lemma sample_box_aff m bs bs' : F2i (fun i (b b' : R * R) => fst b' = al * fst b + v i /\ snd b' = al * snd b + v i) 0 bs bs' ->
    sim (fun x x' => ens x x' /\ mr x = List.length bs /\ mc x = m) (sample_box E m bs) (sample_box E m bs').
  Proof.
    intro H. unfold sample_box. eapply sim_bind; [apply (sim_mmap_i _ (fun i l l' => affl al (v i) l l' /\ List.length l = m) _ _ _ _ _ H)|].
    - intros i a a' Ha. now apply uniform_aff.
    - intros r r' (Hr & Hn). apply sim_ret. rewrite (F2i_length _ _ _ _ H). split; [|auto]. split; [reflexivity|]. split; [reflexivity|].
      intros d n Hd Hn'. cbn [mk mr mc] in Hd, Hn'. rewrite !get_mk by auto. pose proof (F2i_nth _ 0 r r' [] [] d Hr ltac:(lia)) as (Q1 & Q2). cbn [Nat.add] in Q1.
      apply (Forall2_nth' (fun a a' => a' = al * a + v d) _ _ 0 0 n Q1). lia.
  Qed.
  Lemma two_std_aff x x' : ens x x' -> ltimes al (two_std x) (two_std x').
  Proof.
    intro H. unfold two_std. pose proof (std1_aff al v Hal x x' H) as Q. induction Q as [|a a' l l' -> Q IH]; cbn [map]; constructor; [cbn; ring|exact IH].
  Qed.
  Lemma fill_rows_aff k n (f f' : nat -> res (list R)) d : (forall i, (i < d)%nat -> same_outcome (ltimes k) (f i) (f' i)) ->
    same_outcome (times k) (fill_rows d n f) (fill_rows d n f').
  Proof.
    intro H. unfold fill_rows. eapply so_weaken; [apply (so_rfold_seq (fun _ A A' => times k A A'))|auto].
    - apply times_mk. intros. cbn. ring.
    - intros i A A' Hi HA. eapply so_bind; [apply H, Hi|]. intros r r' Hr. eapply so_weaken; [apply (lin_setrow k A A' _ r r' HA Hr)|]. now intros ? ? (? & _).
  Qed.

  Definition drift_rel (fd fd' : mat R -> R -> res (mat R)) : Prop := forall x x' t, rect x -> rect x' -> mr x = dim -> mc x = N -> ens x x' ->
    same_outcome (times al) (fd x t) (fd' x' (t + c)).
  Definition good (x x' : mat R) : Prop := ens x x' /\ wf x /\ wf x' /\ mr x = dim /\ mc x = N.
  Context (g g' : mat R) (Hg : times al g g').

  Lemma noise_sim sc r k : sim eq (normal E sc r k) (normal E sc r k).
  Proof. intro s. unfold normal. destruct (x_normal E s sc r k). cbn. auto. Qed.

  Lemma f_seperate_aff kern m fd fd' guard x x' t : kern <> "periodic" -> drift_rel fd fd' -> good x x' ->
    sim (times al) (f_seperate E kern m g fd guard x t) (f_seperate E kern m g' fd' guard x' (t + c)).
  Proof.
    intros Hk Hf (Hx & Wx & Wx' & Rx & Cx). pose proof Hx as (X1 & X2 & _). unfold f_seperate. eapply sim_bind; [apply sim_lift, own_bnds_aff, Hx|]. intros bs bs' (Hb & Lb).
    eapply sim_bind; [apply sim_lift; destruct guard; rewrite ?plot_guard_ok; apply so_eq; reflexivity|]. intros _ _ _.
    eapply sim_bind; [apply (sample_box_aff m bs bs' Hb)|]. intros Sx Sx' (HS & RS & CS).
    eapply sim_bind; [apply sim_lift; rewrite X1, X2; apply (fill_rows_aff (/ al))|].
    { intros i Hi. apply (score_aff E al v Hal); auto using ens_mT, two_std_aff. cbn [mT mk mc]. congruence. }
    intros G G' HG. eapply sim_bind; [apply sim_lift, Hf; auto using wf_rect|]. intros F F' HF. apply sim_lift.
    eapply so_bind; [apply (times_bc_mul (al * al) (/ al)); [apply times_smul, times_msq, Hg|exact HG]|]. intros C C' HC.
    apply times_bc_sub; [exact HF|]. eapply times_ext; [|exact HC]. field. lra.
  Qed.
  Lemma em_step_aff fd fd' x x' t : drift_rel fd fd' -> good x x' ->
    sim (posr al v dim) (em_step E g fd dim N x t) (em_step E g' fd' dim N x' (t + c)).
  Proof.
    intros Hf (Hx & Wx & Wx' & Rx & Cx). unfold em_step. replace (nsub (t + c) dt) with (nsub t dt + c) by (cbn; ring).
    eapply sim_bind; [apply sim_lift, Hf; auto using wf_rect|]. intros F F' HF.
    eapply sim_bind; [apply sim_lift, (posr_add al v dim); [now apply ens_posr|apply times_smul, HF]|]. intros A A' HA.
    eapply sim_bind; [apply noise_sim|]. intros W _ <-. apply sim_lift.
    eapply so_bind; [apply (times_bc_mul al 1); [exact Hg|apply times_refl]|]. intros B B' HB. apply posr_add; [exact HA|]. eapply times_ext; [|exact HB]. ring.
  Qed.
  Lemma det_step_aff kern m fd fd' guard x x' t : kern <> "periodic" -> drift_rel fd fd' -> good x x' ->
    sim (posr al v dim) (det_step (f_seperate E kern m g fd guard) x t) (det_step (f_seperate E kern m g' fd' guard) x' (t + c)).
  Proof.
    intros Hk Hf Hx. unfold det_step. replace (nsub (t + c) dt) with (nsub t dt + c) by (cbn; ring).
    eapply sim_bind; [apply f_seperate_aff; auto|]. intros D D' HD. apply sim_lift, posr_add; [|apply times_smul, HD]. destruct Hx as (Hx & _ & _ & Rx & _). now apply ens_posr.
  Qed.

  (** reweighting *)
  Lemma weights_of_eq n e e' : times 1 e e' -> weights_of n e' = weights_of n e.
  Proof.
    intro H. unfold weights_of. replace (mexp e') with (mexp e); [reflexivity|]. symmetry. apply times_eq; try apply wf_mmap1.
    unfold mexp. apply (times_mmap1 1); [|exact H]. intro. now rewrite !Rmult_1_l.
  Qed.
  Lemma weights_of_dist n e w : weights_of n e = Ok w -> List.length w = n /\ (forall i, (i < n)%nat -> 0 <= hist w i) /\ ((1 <= n)%nat -> sumn n (hist w) = 1).
  Proof.
    unfold weights_of. intro H. apply rbind_ok in H. destruct H as (w0 & H0 & H). injection H as <-. apply assign_shape_ok in H0. destruct H0 as (_ & R0 & C0 & Hm1 & Hm2 & G0).
    rewrite map_length, row_length, C0. split; [reflexivity|].
    assert (Hp : forall i, (i < n)%nat -> 0 < get w0 0 i).
    { intros i Hi. rewrite G0 by lia. unfold bget, mexp. rewrite get_mmap1; [apply exp_pos| |]; cbn [mexp mmap1 mk mr mc] in *; eapply bidx_bound_a; eauto; lia. }
    assert (Hs : nsum (row w0 0) = sumn n (get w0 0)). { unfold row. rewrite nsum_seq. now rewrite C0. }
    cbn [nsum ROps] in Hs. rewrite Hs. unfold row. rewrite C0, map_map.
    assert (Hh : forall i, (i < n)%nat -> hist (map (fun x => get w0 0 x / sumn n (get w0 0)) (seq 0 n)) i = get w0 0 i / sumn n (get w0 0)).
    { intros i Hi. unfold hist. rewrite nth_map_seq by auto. reflexivity. }
    split.
    - intros i Hi. rewrite Hh by auto. pose proof (Hp i Hi). assert (0 < sumn n (get w0 0)) by (apply sumn_gt0; [lia|auto]). left. now apply Rdiv_lt_0_compat.
    - intros Hn. rewrite (sumn_ext n _ (fun i => get w0 0 i / sumn n (get w0 0))) by exact Hh. rewrite sumn_div. assert (0 < sumn n (get w0 0)) by (apply sumn_gt0; [lia|auto]). field. lra.
  Qed.
  Lemma pdist_aff x x' : pts x x' -> times al (square_pdist x) (square_pdist x').
  Proof.
    intros (H1 & H2 & H3). unfold square_pdist. rewrite H1. apply times_mk. intros i j Hi Hj.
    assert (Q : forall a b, (a < mr x)%nat -> (b < mr x)%nat -> nsqrt (sqdist x' x' a b) = al * nsqrt (sqdist x x a b)).
    { intros a b Ha Hb. unfold sqdist. rewrite !nsum_seq, H2. rewrite (sumn_ext (mc x) _ (fun k => al * al * nsq (nsub (get x a k) (get x b k)))).
      - rewrite sumn_scal. cbn [nsqrt ROps]. rewrite sqrt_mult_alt by nra. now rewrite sqrt_square by lra.
      - intros k Hk. rewrite !H3 by auto. unfold nsq. cbn. ring. }
    destruct (i <? j)%nat; [now apply Q|]. destruct (j <? i)%nat; [now apply Q|]. cbn. ring.
  Qed.
  Lemma reweight_aff e e' x x' : emd_plans (x_emd E) -> al = 1 \/ emd_unit_free E -> times 1 e e' -> good x x' ->
    same_outcome good (reweight_slice E N e x) (reweight_slice E N e' x').
  Proof.
    intros HE HF He (Hx & Wx & Wx' & Rx & Cx). unfold reweight_slice. rewrite (weights_of_eq N e e' He). destruct (weights_of N e) as [w|er] eqn:Hw; [|reflexivity]. cbn [rbind].
    destruct (weights_of_dist N e w Hw) as (Lw & Pw & Sw). unfold reweight_optimal_transport_multidim. cbn [mT mk mr mc]. fold (mT x) (mT x'). pose proof Hx as (X1 & X2 & X3). rewrite X2, Cx, Lw, Nat.eqb_refl.
    cbn [rbind]. set (u := repeat (ndiv none1 (nofnat N)) N). pose proof (pdist_aff _ _ (ens_mT al v _ _ Hx)) as HC. set (C := square_pdist (mT x)) in *. set (C' := square_pdist (mT x')) in *.
    assert (RC : mr C = N) by (unfold C, square_pdist; cbn; congruence). assert (CC : mc C = N) by (unfold C, square_pdist; cbn; congruence).
    assert (HT : mk N N (x_emd E w u C') = mk N N (x_emd E w u C)).
    { destruct HF as [H1|HF].
      - replace C' with C; [reflexivity|]. symmetry. apply times_eq; try apply wf_mk. now rewrite H1 in HC.
      - apply mk_ext. intros i j Hi Hj. apply (HF al); auto; try (apply wf_rect, wf_mk); lia. }
    rewrite HT. set (T := muls (mk N N (x_emd E w u C)) (nofnat N)).
    assert (Hsum : forall j, (j < N)%nat -> sumn N (fun m => get T m j) = 1).
    { intros j Hj. assert (HN : (1 <= N)%nat) by lia. assert (Hn0 : INR N <> 0) by (apply not_0_INR; lia).
      assert (Hu : forall i, (i < N)%nat -> hist u i = / INR N). { intros i Hi. unfold u. rewrite hist_repeat by auto. rewrite nofnat_R. cbn. field. auto. }
      destruct (HE N w u C Lw) as (_ & _ & P3); auto.
      - unfold u. now rewrite repeat_length.
      - intros i Hi. rewrite Hu by auto. left. apply Rinv_0_lt_compat, lt_0_INR. lia.
      - rewrite Sw by auto. rewrite (sumn_ext N _ (fun _ => / INR N)) by exact Hu. rewrite sumn_const. field. auto.
      - intros i k Hi Hk. unfold C, square_pdist. rewrite get_mk by (cbn; lia). destruct (i <? k)%nat; [apply sqrt_pos|]. destruct (k <? i)%nat; [apply sqrt_pos|cbn; lra].
      - rewrite (sumn_ext N _ (fun m => x_emd E w u C m j * INR N)).
        + rewrite sumn_scal_r, P3, Hu by auto. field. auto.
        + intros m Hm. unfold T, muls. rewrite get_mmap1 by auto. rewrite get_mk by auto. rewrite nofnat_R. reflexivity. }
    unfold mmul. rewrite X1, X2, Rx, Cx. cbn [T muls mmap1 mk mr mc]. rewrite Nat.eqb_refl. cbn [same_outcome].
    split; [|split; [apply wf_mk|split; [apply wf_mk|split; reflexivity]]]. split; [reflexivity|]. split; [reflexivity|]. intros d n Hd Hn. cbn [mk mr mc] in Hd, Hn. rewrite !get_mk by auto.
    rewrite !nsum_seq. fold (mk N N (x_emd E w u C)). fold (mmap1 (fun x => nmul x (nofnat N)) (mk N N (x_emd E w u C))). fold (muls (mk N N (x_emd E w u C)) (nofnat N)). fold T.
    rewrite (sumn_ext N _ (fun m => al * (get x d m * get T m n) + v d * get T m n)).
    - rewrite sumn_lin, Hsum by auto. cbn. ring.
    - intros m Hm. rewrite X3 by lia. cbn. ring.
  Qed.
End Steps.
