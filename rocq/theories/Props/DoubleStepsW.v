(** C85: a run (executed) whose first two forward steps meet the size conditions. *)
From Coq Require Import String List ZArith Reals Bool Lia Lra Psatz.
From Flocq Require Import Core BinarySingleNaN.
From Verif Require Import Base.Num Base.Py Base.Arr Lib.RSum Spec.RealSpec Model.Ext Model.Score Model.DPFC Run.Double Run.DoubleExp Spec.DoubleSpec Spec.FlowSpec Spec.RoundSpec.
From Verif Require Import Lib.ArrLemmas Lib.CoreLemmas Lib.DoubleLemmas Lib.FlowLemmas Lib.StepLemmas Props.Flows Props.DoubleQueries Props.DoubleNaNW Props.DoubleSteps.
Import ListNotations.
Local Open Scope R_scope.
Section W.
  Let fid := fun x : double => x.
  #[local] Instance W85Ops : NumOps double := DoubleOps ratexp fid fid sum_right.
  Definition small (c : Z) (x : double) : bool := (Bleb (dZ (- c)) x && Bleb x (dZ c))%bool.
  Lemma small_sized c x : (0 <= c < 9007199254740992)%Z -> small c x = true -> sized (IZR c) x.
  Proof.
    intros Hc H. apply andb_true_iff in H. destruct H as (L & U). destruct (dZ_exact (- c) ltac:(lia)) as (Fm & Vm). destruct (dZ_exact c ltac:(lia)) as (F1 & V1).
    assert (F : finite x). { assert (number x) by (destruct x; try reflexivity; discriminate). destruct x as [| [|] | |]; try reflexivity; [| |discriminate].
      - exfalso. clear -L Fm. destruct (dZ (- c)) as [| [|] | |]; try discriminate.
      - exfalso. clear -U F1. destruct (dZ c) as [| [|] | |]; try discriminate. }
    split; [exact F|]. apply (dle_fin _ _ Fm F) in L. apply (dle_fin _ _ F F1) in U. rewrite Vm, opp_IZR in L. rewrite V1 in U. apply Rabs_le. lra.
  Qed.
  (** the ensemble at grid point 1 and its scores estimated from the corners of its bounding box *)
  Definition check (A : arr3 double) : bool :=
    let x := slice A 1 in
    match lmin (row x 0), lmax (row x 0), lmin (row x 1), lmax (row x 1) with
    | Ok l0, Ok h0, Ok l1, Ok h1 =>
        forallb (fun d => match score_function_multid_seperate StrictExt (mT x) (points 2 [[l0; h0]; [l1; h1]]) nmilli (kern_used "RBF") (LVec (lengthscales x)) (Z.of_nat d + 1) with
                          | Ok sc => forallb (fun n => small 1000 (get x d n) && small 1000 (nth n sc nzero))%bool (seq 0 4) | Err _ => false end) (seq 0 2)
    | _, _, _, _ => false end.
  Lemma run_check q : q = strict_problem -> (match bind (forward_sampling_Otto StrictExt q (kern_used (p_kern q)) grid5 (zeros3 (List.length (p_y1 q)) (p_N q) (List.length grid5)))
    (fun Z1 s1 => match backward_simulation StrictExt q (kern_used (p_kern q)) grid5 Z1 (zeros3 (List.length (p_y1 q)) (p_N q) (List.length grid5)) s1 with (Ok B, s2) => (Ok (check Z1), s2) | (Err e, s2) => (Err e, s2) end) 0%nat
    with (Ok b, _) => b | _ => false end) = true.
  Proof. intros ->. vm_compute. reflexivity. Qed.
  Lemma run_steps q : q = strict_problem -> timegrid (p_t1 q) (p_t2 q) = grid5 -> p_det q = true -> (p_reweight q && p_brown q)%bool = false ->
    exists o s', construct StrictExt q 0%nat = (Ok o, s') /\ check (o_Z o) = true /\ o_par o = q /\ o_grid o = grid5 /\ o_kern o = kern_used (p_kern q).
  Proof.
    intros Hq G0 D R. pose proof (run_check q Hq) as H. unfold bind in H.
    destruct (forward_sampling_Otto StrictExt q (kern_used (p_kern q)) grid5 (zeros3 (List.length (p_y1 q)) (p_N q) (List.length grid5)) 0%nat) as [[Z1|] s1] eqn:HF; [|discriminate].
    destruct (backward_simulation StrictExt q (kern_used (p_kern q)) grid5 Z1 (zeros3 (List.length (p_y1 q)) (p_N q) (List.length grid5)) s1) as [[B|] s2] eqn:HB; [|discriminate].
    eexists. exists s2. split; [exact (construct_steps StrictExt q 0%nat grid5 Z1 s1 B s2 G0 D R HF HB)|]. auto.
  Qed.
  Lemma check_scores (A : arr3 double) l0 h0 l1 h1 : check A = true -> lmin (row (slice A 1) 0) = Ok l0 -> lmax (row (slice A 1) 0) = Ok h0 -> lmin (row (slice A 1) 1) = Ok l1 -> lmax (row (slice A 1) 1) = Ok h1 ->
    forall d sc, (d < 2)%nat -> score_function_multid_seperate StrictExt (mT (slice A 1)) (points 2 [[l0; h0]; [l1; h1]]) nmilli (kern_used "RBF") (LVec (lengthscales (slice A 1))) (Z.of_nat d + 1) = Ok sc ->
    forall n, (n < 4)%nat -> sized 1000 (get (slice A 1) d n) /\ sized 1000 (nth n sc nzero).
  Proof.
    intros CH A1 A2 A3 A4 d sc Hd HS n Hn. unfold check in CH. cbv zeta in CH. rewrite A1, A2, A3, A4 in CH. rewrite forallb_forall in CH. specialize (CH d ltac:(apply in_seq; lia)). rewrite HS in CH.
    rewrite forallb_forall in CH. specialize (CH n ltac:(apply in_seq; lia)). apply andb_true_iff in CH. destruct CH as (C1 & C2). apply small_sized in C1, C2; try lia. tauto.
  Qed.
  Lemma elem_opp (x : mat double) d n : mr x = 2%nat -> mc x = 4%nat -> (d < 2)%nat -> (n < 4)%nat -> elem (mk (mr x) (mc x) (fun d n => nopp (get x d n))) d n = nopp (get x d n).
  Proof. intros R C Hd Hn. unfold elem. cbn [mr mc mk]. rewrite R, C. cbn [Nat.eqb]. now rewrite get_mk by lia. Qed.
  Lemma sized_le a b x : a <= b -> sized a x -> sized b x.
  Proof. intros H (F & Q). split; [exact F|]. lra. Qed.
  (** y1 = (0,1), y2 = (1,2), drift -x, g = 1, four particles, five grid points: the step from grid point 1 to 2 is executed, with scores of at most 1000 *)
  Example C85_example : exists o s', construct StrictExt strict_problem 0%nat = (Ok o, s') /\ List.length (o_grid o) = 5%nat /\
    forall d n, (d < 2)%nat -> (n < 4)%nat -> let x := get3 (o_Z o) d n 1 in let x' := get3 (o_Z o) d n 2 in
      exists score, sized 1000 score /\ sized 1000 x /\ finite x' /\
        Rabs (B2R x' - (B2R x + (- B2R x - B2R score / 2) / 1000)) <= / 1000000000000.
  Proof.
    destruct (run_steps strict_problem eq_refl (grid5_eq) eq_refl eq_refl) as (o & s' & R & CH & Po & Go & Ko). exists o, s'. split; [exact R|]. assert (L : List.length (o_grid o) = 5%nat) by (rewrite Go; reflexivity). split; [exact L|].
    destruct (C85_forward ratexp fid fid sum_right sum_right_ok StrictExt strict_problem 0%nat o s' R eq_refl ltac:(lia)) as (sg & _ & H). specialize (H 2%nat ltac:(rewrite L; lia)). cbv zeta in H. cbn [p_reweight strict_problem] in H.
    unfold r_step in H. cbn [Nat.eqb Nat.sub] in H. destruct H as (F & bnds & rows & score & HF & LB & HR & HD & HS & HC).
    assert (SZ : sh (o_Z o) 2 4 5) by (rewrite <- L; exact (Z_sh StrictExt strict_problem 0%nat o s' R)). destruct (sh_slice _ _ _ _ 1 SZ ltac:(lia)) as (_ & RX & CX).
    rewrite Ko in HS. set (x := slice (o_Z o) 1) in *. pose proof (eq_trans LB RX) as LB2. clear LB. rename LB2 into LB.
    assert (D2 : forall d, (d < 2)%nat -> (d < mr x)%nat) by (intros; lia). assert (N4 : forall n, (n < 4)%nat -> (n < mc x)%nat) by (intros; lia).
    pose proof (fun d Hd => HR d (D2 d Hd)) as HR'. pose proof (fun d Hd => HS d (D2 d Hd)) as HS'. pose proof (fun d n Hd Hn => HC d n (D2 d Hd) (N4 n Hn)) as HC'. clear HR HS HC. rename HR' into HR, HS' into HS, HC' into HC.
    destruct bnds as [|[l0 h0] [|[l1 h1] [|]]]; try discriminate. destruct (HR 0%nat ltac:(lia)) as (A1 & A2). destruct (HR 1%nat ltac:(lia)) as (A3 & A4). cbn [nth fst snd] in A1, A2, A3, A4.
    inversion HD as [|s1 lo hi h s2 bs rows1 s3 U1 HD1]; subst. inversion HD1 as [|s4 lo hi g s5 bs rows2 s6 U2 HD2]; subst. inversion HD2; subst. cbn in U1, U2.
    destruct (is_finite (Bminus mode_NE h0 l0)); [|discriminate]. destruct (is_finite (Bminus mode_NE h1 l1)); [|discriminate]. injection U1 as <- _. injection U2 as <- _.
    cbn [map seq Nat.even p_M strict_problem] in HS.
    intros d n Hd Hn. destruct (check_scores (o_Z o) l0 h0 l1 h1 CH A1 A2 A3 A4 d (score d) Hd (HS d Hd) n Hn) as (C1 & C2).
    specialize (HC d n Hd Hn). cbn in HF. injection HF as <-. cbv zeta. unfold get3. fold x. exists (nth n (score d) nzero). split; [exact C2|]. split; [exact C1|].
    assert (HC2 : flow_close (get (slice (o_Z o) 2) d n) (get x d n) (nopp (get x d n)) (dZ 1) (nth n (score d) nzero)) by (rewrite <- (elem_opp x d n RX CX Hd Hn); exact HC).
    destruct HC2 as (_ & HC2). destruct (dZ_exact 1 ltac:(cbn; lia)) as (F1 & V1). cbn [nopp W85Ops DoubleOps] in HC2. rewrite B2R_Bopp, V1 in HC2. destruct C1 as (Fx & Bx). destruct C2 as (Fs & Bs).
    set (xx := get x d n) in *. change (finite xx) in Fx. change (Rabs (B2R xx) <= 1000) in Bx. set (sc := nth n (score d) nzero) in *. change (finite sc) in Fs. change (Rabs (B2R sc) <= 1000) in Bs.
    assert (So : sized 1000000 (Bopp xx)) by (split; [unfold finite; rewrite is_finite_Bopp; exact Fx|rewrite B2R_Bopp, Rabs_Ropp; lra]).
    assert (S1 : sized 500 (dZ 1)) by (split; [exact F1|rewrite V1, Rabs_R1; lra]).
    destruct (HC2 (sized_le 1000 1000000 xx ltac:(lra) (conj Fx Bx)) So S1 (sized_le 1000 1000000 sc ltac:(lra) (conj Fs Bs))) as (Fx' & Ex'). split; [exact Fx'|].
    rewrite Rabs_Ropp in Ex'. replace (1 ^ 2) with 1 in Ex' by ring. rewrite !Rmult_1_l in Ex'. match type of Ex' with _ <= ?b => assert (Q : b <= / 1000000000000) by lra end.
    exact (Rle_trans _ _ _ Ex' Q).
  Qed.
End W.
