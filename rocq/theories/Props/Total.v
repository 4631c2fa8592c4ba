(** C18: construction succeeds on well-shaped problems, for every number system. *)
From Coq Require Import String List ZArith Lia Bool.
From Verif Require Import Base.Num Base.Py Base.Arr Model.Ext Model.Score Model.DPFC.
From Verif Require Import Spec.FlowSpec Spec.TotalSpec Lib.ArrLemmas Lib.FlowLemmas Lib.CoreLemmas Lib.StochLemmas Lib.TotalLemmas Run.Toy.
Import ListNotations.

Theorem C18_construction_succeeds {T S : Type} {O : NumOps T} (E : Ext T S) p s :
  well_posed p -> no_overflow E -> plots_ok (T := T) (List.length (p_y1 p)) -> no_singular E ->
  p_det p = true -> 1 <= List.length (timegrid (p_t1 p) (p_t2 p)) ->
  exists o s', construct E p s = (Ok o, s').
Proof.
  intros WP HO HP HS Hd Hk. destruct (construct_tot E p WP HO HP (scores_total E _ HS) Hd Hk s) as (o & s' & H & _). eauto.
Qed.

(** the stochastic mode *)
Definition unweighted {T} (p : params T) : params T := {|
  p_t1 := p_t1 p; p_t2 := p_t2 p; p_y1 := p_y1 p; p_y2 := p_y2 p; p_f := p_f p; p_g := p_g p; p_N := p_N p; p_M := p_M p; p_reweight := false; p_U := p_U p;
  p_dens_est := p_dens_est p; p_reject := p_reject p; p_kern := p_kern p; p_f_true := p_f_true p; p_brown := p_brown p; p_det := p_det p |}.
Section Stoch.
  Context {T S : Type} {O : NumOps T} (E : Ext T S) (p : params T) (WS : well_posed_stochastic p) (HO : no_overflow E) (HS : no_singular E).
  Let dim := List.length (p_y1 p).
  Let N := p_N p.
  Lemma unweighted_wp : well_posed (unweighted p).
  Proof. destruct WS. constructor; cbn; auto; try lia; try discriminate. Qed.
  Let WP0 := unweighted_wp.
  Lemma HP0 : plots_ok (T := T) (List.length (p_y1 (unweighted p))). Proof. left. apply (ws_dim _ WS). Qed.
  Let HS0 := scores_total E (List.length (p_y1 (unweighted p))) HS.
  Lemma col_tot (A : arr3 T) k i t src : sh A dim N k -> i < N -> t < k -> ism 1 dim src -> exists A', setcol3 A (Z.of_nat i) (Z.of_nat t) src = Ok A' /\ sh A' dim N k.
  Proof.
    intros HA Hi Ht Hm. assert (Q : exists A', setcol3 A (Z.of_nat i) (Z.of_nat t) src = Ok A').
    { pose proof HA as (_ & D & Nn & K). unfold setcol3. rewrite D, Nn, K, !pyidx_nat by auto. destruct (assign_ism 1 dim src Hm) as (v & -> & _). cbn [rbind]. eauto. }
    destruct Q as (A' & Q). exists A'. split; [exact Q|]. now apply (setcol3_ok A A' dim N k i t src HA Q).
  Qed.
  Lemma particle_tot (Zf : arr3 T) k ti i : sh Zf dim N k -> 1 <= ti < k -> i < N -> tot (stoch_particle E p ti Zf i) (fun A => sh A dim N k).
  Proof.
    intros HZ Ht Hi. unfold stoch_particle. destruct (sh_slice _ _ _ _ (ti - 1) HZ ltac:(lia)) as (_ & R & C).
    apply (tot_bind _ _ (fun x => x = slice Zf (ti - 1))). { apply tot_lift. exists (slice Zf (ti - 1)). split; [|reflexivity]. replace (Z.of_nat ti - 1)%Z with (Z.of_nat (ti - 1)) by lia. apply getsl_nat. destruct HZ as (_ & _ & _ & ->). lia. }
    intros x ->. set (xi := vec (col (slice Zf (ti - 1)) i)). assert (Hx : ism 1 dim xi) by (split; [reflexivity|cbn; now rewrite col_length]).
    destruct (ws_f1 _ WS xi (proj1 Hx) (proj2 Hx)) as (F & HF & F1 & F2).
    apply (tot_bind _ _ (ism 1 dim)); [apply tot_lift; exists F; split; [exact HF|split; auto]|]. intros fx Hfx.
    apply (tot_bind _ _ (ism 1 dim)); [apply tot_lift, bc2_ism; auto; split; apply Hfx|]. intros a Ha.
    apply (tot_bind _ _ (ism 1 dim)); [apply normal_tot|]. intros no Hno. apply tot_lift. destruct (ws_g _ WS) as (G1 & G2).
    destruct (bc2_col nmul (p_g p) no 1 dim) as (gn & -> & Hgn); auto. cbn [rbind]. destruct (bc2_ism nadd a gn 1 dim Ha Hgn) as (y & -> & Hy). cbn [rbind]. apply col_tot; auto; lia.
  Qed.
  Lemma setsl_tot (A : arr3 T) k t y : sh A dim N k -> t < k -> ism dim N y -> exists A', setsl A (Z.of_nat t) y = Ok A' /\ sh A' dim N k.
  Proof.
    intros HA Ht Hy. destruct (assign_ism dim N y Hy) as (m & Hm & (Wm & M1 & M2)). rewrite (setsl_eq _ _ _ _ _ _ HA) by lia. rewrite Hm. cbn. eexists. split; [reflexivity|]. apply sh_set; auto.
  Qed.
  Lemma stoch_tot grid : 1 <= List.length grid -> tot (forward_sampling E p grid (zeros3 dim N (List.length grid))) (fun Z1 => sh Z1 dim N (List.length grid)).
  Proof.
    intro Hk. set (k := List.length grid) in *. unfold forward_sampling. apply (tot_bind _ _ (fun A => sh A dim N k)).
    2:{ intros A HA. apply tot_lift. apply (pin_tot (unweighted p)); auto. cbn. rewrite (ws_y _ WS). auto. }
    apply tot_mfold; [apply sh_zeros|]. intros Zf [ti t] HZ Hin. assert (Hi : ti < k). { unfold enumerate in Hin. apply in_combine_l in Hin. apply in_seq in Hin. fold k in Hin. lia. }
    pose proof (ws_dim _ WS) as Hdim. unfold stoch_body. destruct (Nat.eqb_spec ti 0) as [ -> |H0].
    - apply tot_lift. pose proof (pyget_nat (p_y1 p) 0 nzero ltac:(lia)) as G0. pose proof (pyget_nat (p_y1 p) 1 nzero ltac:(lia)) as G1. change (Z.of_nat 0) with 0%Z in G0. change (Z.of_nat 1) with 1%Z in G1.
      destruct (setrow3_tot (unweighted p) Zf k 0 0%Z (nth 0 (p_y1 p) nzero) HZ ltac:(cbn; lia) Hk ltac:(auto)) as (A & Q & HA). change (Z.of_nat 0) with 0%Z in Q.
      destruct (setrow3_tot (unweighted p) A k 1 0%Z (nth 1 (p_y1 p) nzero) HA ltac:(cbn; lia) Hk ltac:(auto)) as (A' & Q' & HA'). change (Z.of_nat 1) with 1%Z in Q'.
      rewrite G0. cbn [rbind]. rewrite Q. cbn [rbind]. rewrite G1. cbn [rbind]. eauto.
    - apply (tot_bind _ _ (fun A => sh A dim N k)).
      { apply tot_mfold; [exact HZ|]. intros A i HA Hin'. apply in_seq in Hin'. apply particle_tot; auto; [lia|unfold N; lia]. }
      intros Z1 HZ1. destruct (p_reweight p) eqn:Hr; [|now apply tot_ret]. apply tot_lift. destruct (sh_slice _ _ _ _ ti HZ1 ltac:(lia)) as (_ & R & C).
      rewrite getsl_nat by (destruct HZ1 as (_ & _ & _ & ->); lia). cbn [rbind]. destruct (ws_U _ WS Hr (slice Z1 ti) R C) as (u & -> & U1 & U2). cbn [rbind].
      destruct (reweight_tot E (unweighted p) u (slice Z1 ti)) as (y & Hy & Iy); [split; auto|split; auto|]. cbn [unweighted p_N] in Hy. rewrite Hy. cbn [rbind]. apply setsl_tot; auto.
  Qed.
  Theorem C18_stochastic_construction_succeeds s : p_det p = false -> 1 <= List.length (timegrid (p_t1 p) (p_t2 p)) -> exists o s', construct E p s = (Ok o, s').
  Proof.
    intros Hd Hk. assert (Q : tot (construct E p) (fun _ => True)); [|destruct (Q s) as (o & s' & Q' & _); eauto]. unfold construct. rewrite Hd. fold dim N. set (grid := timegrid (p_t1 p) (p_t2 p)) in *.
    apply (tot_bind _ _ (fun ZZ => sh (fst ZZ) dim N (List.length grid))).
    - apply (tot_bind _ _ (fun Z1 => sh Z1 dim N (List.length grid))); [now apply stoch_tot|]. intros Z1 HZ1. apply tot_ret. exact HZ1.
    - intros [Z1 Zt] HZ1. apply (tot_bind _ _ (fun _ => True)); [|intros; now apply tot_ret]. cbn [fst] in *.
      pose proof (kern_rbf (unweighted p) WP0) as Hkern. cbn [unweighted p_kern] in Hkern. rewrite Hkern.
      intro s0. destruct (bw_tot E (unweighted p) WP0 HO HP0 HS0 grid Z1 Hk HZ1 s0) as (a & s2 & H & _). exists a, s2. split; [exact H|exact I].
  Qed.
End Stoch.

(** the hypotheses are met by the toy environment, with reweighting and bridge *)
Example C18_toy : well_posed toy_bridge /\ no_overflow ToyExt /\ plots_ok (T := Z) 2 /\ no_singular ToyExt /\
  List.length (timegrid (p_t1 toy_bridge) (p_t2 toy_bridge)) = 5.
Proof.
  split; [|split; [|split; [|split]]].
  - constructor; cbn; auto; try lia.
    + intros x t H1 H2. eexists. split; [reflexivity|]. cbn. auto.
    + intros _ x t H1 H2. eexists. split; [reflexivity|]. split; [reflexivity|]. cbn [U2 vec mk mc]. rewrite row_length. exact H2.
    + intros _ _ x t H1 H2. eexists. split; [reflexivity|]. cbn. auto.
  - intros s lo hi m. cbn. eauto.
  - left. lia.
  - intros A _. cbn. discriminate.
  - reflexivity.
Qed.
