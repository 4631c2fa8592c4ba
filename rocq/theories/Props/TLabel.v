(** C70 for the PyTorch class: both modes (the bridge needs stochastic mode: in deterministic mode its reference flow uses
    transposed arrays and almost never completes, C50). *)
From Coq Require Import String List ZArith Reals Lra Lia Bool Permutation.
From Verif Require Import Base.Num Base.Py Base.Arr Lib.ArrLemmas Model.Ext Model.Cdist Model.Reweight Model.Score Model.ScoreTorch Model.DPFC Model.TDPFC.
From Verif Require Import Spec.FlowSpec Spec.RealSpec Spec.Contracts Spec.AffineSpec Spec.LabelSpec Lib.FlowLemmas Lib.StepLemmas Lib.RSum Lib.RBase Lib.Sim Lib.AffineLemmas Lib.AffineRun Lib.TAffineScore Lib.LabelLemmas Lib.LabelRun Lib.TLabel.
From Verif Require Import Run.RealExt Props.Witnesses Props.Label Props.TTotal.
Import ListNotations.
Local Open Scope string_scope.
Local Open Scope R_scope.

Section C70.
  Context {S : Type} (E E' : Ext R S) (s : nat -> nat) (p : params R).
  Let N := p_N p.
  Let dim := List.length (p_y1 p).
  Context (Hs : renumbering N s) (HE : env_renumbered N s E E') (HP : label_free N s p).
  (** stochastic mode calls the constraint with one argument *)
  Context (HU1 : p_det p = false -> p_reweight p = true -> treats_alike N s (List.length (p_y1 p)) (ocall1 (p_U p))).
  Context (HB : p_det p && (p_reweight p && p_brown p) = false).

  Lemma t_construct_label b : sim (obj_rel s p) (t_construct E b p) (t_construct E' b p).
  Proof.
    unfold t_construct. destruct b; cbn [size_dim0]; [|intro st; split; reflexivity]. eapply sim_bind with (P := fun a a' => a = dim /\ a' = dim); [apply sim_lift; cbn; auto|]. intros _ _ (-> & ->).
    eapply sim_bind; [apply sim_lift, so_eq; reflexivity|]. intros grid _ <-. fold N.
    eapply sim_bind with (P := fun ZZ ZZ' => FR N s dim (List.length grid) (fst ZZ) (fst ZZ') /\
      match snd ZZ, snd ZZ' with Some A, Some A' => FR N s dim (List.length grid) A A' | None, None => True | _, _ => False end).
    - destruct (p_det p) eqn:Hd.
      + eapply sim_bind; [apply (t_otto_label E E' s p Hs HE HP grid)|]. intros Z1 Z1' HZ. cbn [andb] in HB. rewrite HB. apply sim_ret. cbn. auto.
      + eapply sim_bind; [apply (t_stoch_label E E' s p Hs HE HP grid (HU1 eq_refl))|]. intros Z1 Z1' HZ. apply sim_ret. cbn [fst snd]. split; [exact HZ|]. destruct (p_reweight p && p_brown p); [|exact I]. now apply FR_zeros.
    - intros ZZ ZZ' (HZ & HZt). eapply sim_bind; [apply (t_bw_label E E' s p Hs HE HP grid _ (fst ZZ) (fst ZZ') HZ)|]. intros B B' HBB. apply sim_ret.
      split; [reflexivity|]. split; [exact HZ|]. split; [exact HBB|]. split; [exact HZt|]. cbn. auto.
  Qed.

  Theorem C70_torch_run b s0 :
    same_outcome (object_renumbered s) (fst (t_construct E b p s0)) (fst (t_construct E' b p s0)) /\ snd (t_construct E' b p s0) = snd (t_construct E b p s0).
  Proof.
    destruct (t_construct_label b s0) as (H1 & H2). split; [|exact H2]. eapply so_weaken; [exact H1|]. intros o o' (G1 & G2 & G3 & G4 & G5 & G6 & G7 & G8).
    split; [congruence|]. split; [congruence|]. split; [exact G1|]. split; [exact (FR_flow s p _ _ _ G2)|]. split; [exact (FR_flow s p _ _ _ G3)|].
    destruct (o_Ztr o), (o_Ztr o'); auto. exact (FR_flow s p _ _ _ G4).
  Qed.

  Lemma t_covered_label o o' X ti : obj_rel s p o o' -> t_check_if_covered o' X ti = t_check_if_covered o X ti.
  Proof.
    intros (G1 & G2 & G3 & _ & G5 & G6 & _). apply so_eq_inv. unfold t_check_if_covered. rewrite G5, G6. fold dim.
    eapply so_weaken; [apply (so_rfold_seq (fun _ => @eq bool)); [reflexivity|]|auto]. intros i b _ Hi <-.
    eapply so_bind; [apply (FR_getsl N s dim _ _ _ ti G2)|]. intros z z' (Hz & _ & _ & Rz & _).
    eapply so_bind; [apply (FR_getsl N s dim _ _ _ ti G3)|]. intros bb bb' (Hb & _ & _ & Rb & _).
    rewrite (hull_bnd_cols N s Hs z z' bb bb' i) by (auto; lia). now apply so_eq.
  Qed.
  Lemma t_gauss_label gx b b' z z' di : columns_renumbered N s b b' -> columns_renumbered N s z z' -> (di < mr b)%nat -> (di < mr z)%nat -> t_gauss_row gx b' z' di = t_gauss_row gx b z di.
  Proof.
    intros Hb Hz H1 H2. unfold t_gauss_row. now rewrite (nmean_perm _ _ (cols_row N s Hs b b' di Hb H1)), (tstd_perm _ _ (cols_row N s Hs b b' di Hb H1)),
      (nmean_perm _ _ (cols_row N s Hs z z' di Hz H2)), (tstd_perm _ _ (cols_row N s Hs z z' di Hz H2)).
  Qed.
  Lemma t_control_label o o' gx ti : obj_rel s p o o' -> sim eq (t_calculate_u E o gx ti) (t_calculate_u E' o' gx ti).
  Proof.
    intros (G1 & G2 & G3 & G4 & G5 & G6 & G7 & G8). unfold t_calculate_u, bridged. rewrite G1, G5, G6, G7, G8. fold dim. set (kern := kern_used (p_kern p)) in *.
    eapply sim_bind; [apply sim_lift, (FR_getsl N s dim _ _ _ ti G3)|]. intros b b' (Hb & _ & _ & Rb & Cb).
    eapply sim_bind; [apply sim_lift, (FR_getsl N s dim _ _ _ ti G2)|]. intros z z' Hz'. pose proof Hz' as (Hz & _ & _ & Rz & Cz).
    eapply sim_bind with (P := ens N s dim).
    { apply sim_lift. destruct (p_reweight p && p_brown p); [|exact Hz']. destruct (o_Ztr o), (o_Ztr o'); try contradiction; [|reflexivity]. exact (FR_getsl N s dim _ _ _ ti G4). }
    intros fw fw' (Hw & _ & _ & Rw & Cw). rewrite (hull_bnds_cols N s Hs dim fw fw' b b'), (two_tstd_cols N s Hs b b' Hb), (two_tstd_cols N s Hs z z' Hz), (two_tstd_cols N s Hs fw fw' Hw) by (auto; lia).
    eapply sim_bind; [apply sim_lift, so_eq; reflexivity|]. intros bs _ <-. destruct ((ti <=? 5)%Z || (Z.of_nat (List.length (o_grid o)) - 5 <=? ti)%Z).
    - apply sim_lift. apply (so_rfold_seq (fun _ => eq)); [reflexivity|]. intros i u _ Hi <-. rewrite (t_gauss_label gx b b' fw fw' i) by (auto; lia). now apply so_eq.
    - eapply sim_bind; [apply (t_sample_box_same N s E E' HE)|]. intros Sx _ <-. apply sim_lift.
      eapply so_bind; [apply (tscore_fun_rows N s Hs E E' HE nmilli kern _ _ Sx _ (cols_mT N s Hs b b' Hb))|]. intros fb fb' (Hfb & _). rewrite Hfb.
      eapply so_bind; [apply so_eq; reflexivity|]. intros sb _ <-.
      eapply so_bind; [apply (tscore_fun_rows N s Hs E E' HE nmilli kern _ _ Sx _ (cols_mT N s Hs fw fw' Hw))|]. intros ff ff' (Hff & _). rewrite Hff. now apply so_eq.
  Qed.

  (** every query, whatever the generator state when it is asked, gets the same answer (value or exception) *)
  Theorem C70_torch_answers b s0 o o' : fst (t_construct E b p s0) = Ok o -> fst (t_construct E' b p s0) = Ok o' ->
    (forall gx ti s1, t_calculate_u E' o' gx ti s1 = t_calculate_u E o gx ti s1) /\ forall X ti, t_check_if_covered o' X ti = t_check_if_covered o X ti.
  Proof.
    intros H H'. destruct (t_construct_label b s0) as (Q & _). rewrite H, H' in Q. split.
    - intros gx ti s1. now apply sim_eq, t_control_label.
    - intros. now apply t_covered_label.
  Qed.
End C70.
(** the deterministic problem of Run/RealExt.v on a two-point grid: both constructors complete, and the second object is the renumbered first *)
Example W70_torch : forall rw brown s0, rw && brown = false -> exists E' o o', env_renumbered 3 turn RealExt E' /\ otemd_contract E' /\
  fst (t_construct RealExt IsTensor (shorten (real_problem rw brown)) s0) = Ok o /\ fst (t_construct E' IsTensor (shorten (real_problem rw brown)) s0) = Ok o' /\
  List.length (o_grid o') = 2%nat /\ object_renumbered turn o o' /\ forall gx ti s1, t_calculate_u E' o' gx ti s1 = t_calculate_u RealExt o gx ti s1.
Proof.
  intros rw brown s0 Hb. destruct (C70_environment 3 turn turn_ok RealExt) as (E' & HE & _ & Hot & _). exists E'.
  destruct (W68_short rw brown s0 Hb) as (o & s' & Ho & L). assert (HP : label_free 3 turn (shorten (real_problem rw brown))) by (destruct (real_label_free rw brown); constructor; assumption).
  assert (HU1 : p_det (shorten (real_problem rw brown)) = false -> p_reweight (shorten (real_problem rw brown)) = true ->
    treats_alike 3 turn (List.length (p_y1 (shorten (real_problem rw brown)))) (ocall1 (p_U (shorten (real_problem rw brown))))) by (intro H; discriminate H).
  assert (HB : p_det (shorten (real_problem rw brown)) && (p_reweight (shorten (real_problem rw brown)) && p_brown (shorten (real_problem rw brown))) = false) by exact Hb.
  destruct (C70_torch_run RealExt E' turn (shorten (real_problem rw brown)) turn_ok HE HP HU1 HB IsTensor s0) as (Q & _). rewrite Ho in Q. cbn [fst] in Q.
  destruct (fst (t_construct E' IsTensor (shorten (real_problem rw brown)) s0)) as [o'|e] eqn:Ho'; [|destruct Q]. cbn [same_outcome] in Q. exists o, o'.
  split; [exact HE|]. split; [apply Hot; apply contracts_consistent|]. split; [now rewrite Ho|]. split; [reflexivity|]. split; [destruct Q as (_ & _ & -> & _); exact L|]. split; [exact Q|].
  intros gx ti s1. exact (proj1 (C70_torch_answers RealExt E' turn (shorten (real_problem rw brown)) turn_ok HE HP HU1 HB IsTensor s0 o o' ltac:(now rewrite Ho) Ho') gx ti s1).
Qed.
