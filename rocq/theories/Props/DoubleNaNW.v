(** Concrete cases for C83 and for the stochastic part of C18. *)
From Coq Require Import String List ZArith Reals Bool Lia Lra.
From Flocq Require Import Core BinarySingleNaN.
From Verif Require Import Base.Num Base.Py Base.Arr Lib.ArrLemmas Model.Ext Model.Score Model.DPFC Run.Double Run.DoubleExp Spec.DoubleSpec Spec.FlowSpec Spec.QuerySpec Spec.TotalSpec.
From Verif Require Import Lib.DoubleLemmas Props.DoubleGrid Props.Flows Props.Total Props.DoubleWitness Props.DoubleNaN Lib.FlowLemmas Lib.QueryLemmas Props.Queries.
Import ListNotations.
Local Open Scope nat_scope.
#[local] Instance WOps : NumOps double := DoubleOps exp_nearest (fun x => x) (fun x => x) sum_right.

(** the problem of C64_run in the stochastic mode; the generator returns the lower end of every interval *)
Definition LowExt : Ext double nat :=
  let h := HalfExt exp_nearest (fun x => x) (fun x => x) sum_right in
  {| x_normal := x_normal h; x_uniform := fun s lo _ _ => (Ok (fun _ => lo), Datatypes.S s); x_tuniform := x_tuniform h; x_inv := x_inv h; x_emd := x_emd h; x_otemd := x_otemd h |}.
Definition stoch_problem : params double :=
  let q := double_problem exp_nearest (fun x => x) (fun x => x) sum_right in
  {| p_t1 := p_t1 q; p_t2 := p_t2 q; p_y1 := p_y1 q; p_y2 := p_y2 q; p_f := {| call1 := fun x => Ok (mk (mr x) (mc x) (fun d n => nopp (get x d n))); call2 := call2 (p_f q) |}; p_g := p_g q; p_N := p_N q; p_M := p_M q;
     p_reweight := false; p_U := None; p_dens_est := p_dens_est q; p_reject := p_reject q; p_kern := p_kern q; p_f_true := None; p_brown := false; p_det := false |}.
Lemma low_point : uniform_point LowExt.
Proof. intros s lo m h s' F H i Hi. cbn in H. injection H as <- _. auto. Qed.
Lemma stoch_posed : well_posed_stochastic stoch_problem.
Proof. constructor; cbn; auto; try lia; try discriminate; intros; eexists; (split; [reflexivity|]); cbn; auto. Qed.
Example C83_example : exists o s', construct LowExt stoch_problem 0 = (Ok o, s') /\ List.length (o_grid o) = 21 /\
  (forall d n t, d < 2 -> n < 4 -> 1 <= t < 20 -> get3 (o_B o) d n t = dNaN) /\
  (forall gx ti sq v sq' j, selects 21 ti j -> calculate_u LowExt o gx ti sq = (Ok v, sq') -> forall d i, d < 2 -> i < mr gx -> ~ finite (get v d i)).
Proof.
  destruct (C64_run exp_nearest (fun x => x) (fun x => x) sum_right) as (o0 & s0 & H0 & L0 & _).
  assert (G0 : o_grid o0 = timegrid (p_t1 stoch_problem) (p_t2 stoch_problem)) by (apply (Flows.grid_eq _ _ _ _ _ H0)).
  destruct (C18_stochastic_construction_succeeds LowExt stoch_problem stoch_posed) with (s := 0) as (o & s' & H).
  - intros s lo hi m. eexists. eexists. reflexivity.
  - intros A _. cbn. discriminate.
  - reflexivity.
  - rewrite <- G0, L0. lia.
  - exists o, s'. split; [exact H|]. assert (LL : List.length (o_grid o) = 21) by (rewrite (Flows.grid_eq _ _ _ _ _ H), <- G0; exact L0). split; [exact LL|].
    assert (Sh : forall n, (n = 0 \/ n = 1 \/ n = 2)%Z -> short (dZ n) 4) by (intros n [ -> |[ -> | -> ]]; apply short_int; cbn; lia). split.
    + intros d n t Hd Hn Ht. refine (C83_stochastic_nan exp_nearest (fun x => x) (fun x => x) sum_right sum_right_ok (ex_nan _ exp_nearest_ok) LowExt stoch_problem 0 o s' H eq_refl low_point _ _ _ 0 _ _ d n t Hd Hn _ _); try (cbn; lia).
      apply Sh. auto.
    + intros gx ti sq v sq' j Hsel HC d i Hd Hi. refine (proj1 (C83_stochastic_control exp_nearest (fun x => x) (fun x => x) sum_right sum_right_ok (ex_nan _ exp_nearest_ok) LowExt stoch_problem 0 o s' H eq_refl low_point _ _ _ _ _ gx ti sq v sq' j _ HC d i Hd Hi)); try (cbn; lia); [|rewrite LL; exact Hsel].
      intros e He. change (e < 2) in He. destruct e as [|[|e]]; [| |lia]; split; apply Sh; auto.
Qed.

(** the problem of C64_run with the Brownian-bridge drift (y2-x)/(T-t): 0/0 at the last grid point *)
Definition lit002 : double := nlit 2 100.
#[local] Opaque lit002.
Definition pinned_problem : params double :=
  let q := double_problem exp_nearest (fun x => x) (fun x => x) sum_right in
  {| p_t1 := p_t1 q; p_t2 := p_t2 q; p_y1 := p_y1 q; p_y2 := p_y2 q;
     p_f := {| call1 := fun _ => Err TypeError; call2 := fun x t => Ok (mk (mr x) (mc x) (fun d n => ndiv (nsub (nth d [dZ 1; dZ 2] nzero) (get x d n)) (nsub lit002 t))) |};
     p_g := p_g q; p_N := p_N q; p_M := p_M q; p_reweight := false; p_U := None; p_dens_est := p_dens_est q; p_reject := p_reject q; p_kern := p_kern q; p_f_true := None; p_brown := false; p_det := true |}.
Definition last20 : double := nadd (dZ 0) (nmul (nofnat 20) (nsub (nadd (dZ 0) (dt (T := double))) (dZ 0))).
Lemma last20_eq : ndiv (nsub (dZ 1) (dZ 1)) (nsub lit002 last20) = dNaN.
Proof. vm_compute. reflexivity. Qed.
Example C83_example_drift : exists o s', construct (HalfExt exp_nearest (fun x => x) (fun x => x) sum_right) pinned_problem 0 = (Ok o, s') /\ List.length (o_grid o) = 21 /\
  forall t, 1 <= t < 19 -> (forall d n, d < 2 -> n < 4 -> get3 (o_B o) d n t = dNaN) /\
    forall gx sq v sq', calculate_u (HalfExt exp_nearest (fun x => x) (fun x => x) sum_right) o gx (Z.of_nat t) sq = (Ok v, sq') -> forall d i, d < 2 -> i < mr gx -> get v d i = dNaN.
Proof.
  destruct (C64_run exp_nearest (fun x => x) (fun x => x) sum_right) as (o0 & s0 & H0 & L0 & _).
  assert (G0 : o_grid o0 = timegrid (p_t1 pinned_problem) (p_t2 pinned_problem)) by (apply (Flows.grid_eq _ _ _ _ _ H0)).
  destruct (C18_construction_succeeds (HalfExt exp_nearest (fun x => x) (fun x => x) sum_right) pinned_problem 0) as (o & s' & R).
  - constructor; cbn; auto; try lia; try discriminate; intros; eexists; (split; [reflexivity|]); cbn; auto.
  - intros s lo hi m. eexists. eexists. reflexivity.
  - left. cbn. lia.
  - intros A _. cbn. discriminate.
  - reflexivity.
  - rewrite <- G0, L0. lia.
  - exists o, s'. split; [exact R|]. assert (GE : o_grid o = timegrid (p_t1 pinned_problem) (p_t2 pinned_problem)) by (apply (Flows.grid_eq _ _ _ _ _ R)). assert (L : List.length (o_grid o) = 21) by (rewrite GE, <- G0; exact L0). split; [exact L|]. intros t Ht.
    assert (LG : nth 20 (o_grid o) nzero = last20).
    { pose proof L as L'. rewrite GE in *. unfold timegrid, np_arange in *. rewrite map_length, seq_length in L'. rewrite L'. reflexivity. }
    destruct (C04_time_reversed_boundaries _ pinned_problem 0 o s' R ltac:(rewrite L; lia)) as (_ & PB). rewrite L in PB.
    destruct (construct_consistent _ pinned_problem 0 o s' R) as (_ & (_ & _ & _ & HB & _)). pose proof HB as (DB & NB & _). apply has_shape_sh in HB. destruct (sh_slice _ _ _ _ 20 HB ltac:(rewrite L; lia)) as (_ & RB & CB).
    change (mr (slice (o_B o) 20) = 2) in RB. change (mc (slice (o_B o) 20) = 4) in CB.
    pose proof (C83_terminal_drift exp_nearest (fun x => x) (fun x => x) sum_right sum_right_ok (ex_nan _ exp_nearest_ok) _ pinned_problem 0 o s' R eq_refl ltac:(cbn; lia)) as TD. rewrite L in TD. change (21 - 1) with 20 in TD.
    specialize (TD _ 0 0 eq_refl ltac:(cbn; lia) ltac:(cbn; lia)). destruct TD with (t := t) as (A & B); try lia.
    + match goal with |- context [nth 20 (o_grid o) ?z] => change (nth 20 (o_grid o) z) with (nth 20 (o_grid o) nzero) end. rewrite LG.
      match goal with |- elem (mk (mr ?b) _ _) _ _ = _ => assert (RB' : mr b = 2) by exact RB; assert (CB' : mc b = 4) by exact CB; assert (Q : get b 0 0 = dZ 1) by (apply (PB 0 0); [rewrite DB; cbn; lia|rewrite NB; cbn; lia]); rewrite RB', CB' end.
      unfold elem. cbn [mr mc mk Nat.eqb]. rewrite get_mk by lia. rewrite Q. exact last20_eq.
    + split; [exact A|]. intros gx sq v sq' HC. apply (B gx (Z.of_nat t) sq v sq'); [|exact HC]. unfold selects. lia.
Qed.

(** a run with a generator that raises like np.random.uniform: y1 = (0,1), y2 = (1,2), four particles, five grid points (executed; the exponential
    does not matter for these theorems and is replaced by a computable function) *)
Definition ratexp (x : double) : double := Bdiv mode_NE (dZ 1) (Bminus mode_NE (dZ 1) x).
Lemma bind_ok_inv {S A B : Type} (m : M S A) (f : A -> M S B) s : (match bind m f s with (Ok _, _) => true | _ => false end) = true ->
  exists a s1 b s2, m s = (Ok a, s1) /\ f a s1 = (Ok b, s2).
Proof. unfold bind. destruct (m s) as [[a|] s1] eqn:Q; [|discriminate]. destruct (f a s1) as [[b|] s2] eqn:Q'; [|discriminate]. eauto 10. Qed.
Lemma construct_steps {T S : Type} {O : NumOps T} (E : Ext T S) p s grid Z1 s1 B s2 : timegrid (p_t1 p) (p_t2 p) = grid -> p_det p = true -> (p_reweight p && p_brown p)%bool = false ->
  forward_sampling_Otto E p (kern_used (p_kern p)) grid (zeros3 (List.length (p_y1 p)) (p_N p) (List.length grid)) s = (Ok Z1, s1) ->
  backward_simulation E p (kern_used (p_kern p)) grid Z1 (zeros3 (List.length (p_y1 p)) (p_N p) (List.length grid)) s1 = (Ok B, s2) ->
  construct E p s = (Ok {| o_par := p; o_kern := kern_used (p_kern p); o_grid := grid; o_Z := Z1; o_B := B; o_Ztr := None |}, s2).
Proof. intros G D R H1 H2. unfold construct, bind. rewrite G, D, R, H1. cbn [fst snd ret]. rewrite H2. reflexivity. Qed.
Section Strict.
  Let fid := fun x : double => x.
  #[local] Instance XOps : NumOps double := DoubleOps ratexp fid fid sum_right.
  Definition StrictExt : Ext double nat := {|
    x_normal := fun s sc r c => (fun i j => if Nat.even (i + j + s) then sc else nopp sc, Datatypes.S s);
    x_uniform := fun s lo hi m => (if is_finite (Bminus mode_NE hi lo) then Ok (fun i => if Nat.even i then lo else hi) else Err OverflowError, Datatypes.S s);
    x_tuniform := fun s lo hi m => (fun i d => nth d lo nzero, Datatypes.S s);
    x_inv := fun A => Some (fun i j => if Nat.eqb i j then ndiv none1 (get A i i) else nzero);
    x_emd := fun a b c i j => nmul (nth i a nzero) (nth j b nzero);
    x_otemd := fun a b c i j => nmul (nth i a nzero) (nth j b nzero) |}.
  Definition strict_problem : params double := {|
    p_t1 := dZ 0; p_t2 := nlit 4 1000; p_y1 := [dZ 0; dZ 1]; p_y2 := [dZ 1; dZ 2];
    p_f := {| call1 := fun _ => Err TypeError; call2 := fun x _ => Ok (mk (mr x) (mc x) (fun d n => nopp (get x d n))) |};
    p_g := mk 1 1 (fun _ _ => dZ 1); p_N := 4; p_M := 2;
    p_reweight := false; p_U := None; p_dens_est := "nonparametric"; p_reject := true; p_kern := "RBF"; p_f_true := None; p_brown := false; p_det := true |}.
  Lemma strict_finite : uniform_finite StrictExt.
  Proof. intros s lo hi m h s' H. cbn in H. destruct (is_finite (Bminus mode_NE hi lo)) eqn:Q; [exact Q|discriminate]. Qed.
  Definition grid5 : list double :=
    map (fun i => match i with 0 => dZ 0 | 1 => nadd (dZ 0) (dt (T := double)) | _ => nadd (dZ 0) (nmul (nofnat i) (nsub (nadd (dZ 0) (dt (T := double))) (dZ 0))) end) (seq 0 5).
  Lemma run5_ok q : q = strict_problem -> (match bind (forward_sampling_Otto StrictExt q (kern_used (p_kern q)) grid5 (zeros3 (List.length (p_y1 q)) (p_N q) (List.length grid5)))
    (fun Z1 => backward_simulation StrictExt q (kern_used (p_kern q)) grid5 Z1 (zeros3 (List.length (p_y1 q)) (p_N q) (List.length grid5))) 0
    with (Ok _, _) => true | _ => false end) = true.
  Proof. intros ->. vm_compute. reflexivity. Qed.
  Lemma run5 q : q = strict_problem -> timegrid (p_t1 q) (p_t2 q) = grid5 -> p_det q = true -> (p_reweight q && p_brown q)%bool = false -> exists o s', construct StrictExt q 0 = (Ok o, s').
  Proof.
    intros Hq G0 D R. destruct (bind_ok_inv _ _ _ (run5_ok q Hq)) as (Z1 & s1 & B & s2 & F & G). eexists. exists s2. exact (construct_steps StrictExt q 0 grid5 Z1 s1 B s2 G0 D R F G).
  Qed.
  Lemma grid5_eq : timegrid (p_t1 strict_problem) (p_t2 strict_problem) = grid5.
  Proof.
    destruct (dZ_exact 0 ltac:(cbn; lia)) as (F0 & V0). destruct (dZ_exact 4 ltac:(cbn; lia)) as (F4 & V4). destruct (dZ_exact 1000 ltac:(cbn; lia)) as (FK & VK).
    destruct (div_near (dZ 4) (dZ 1000) F4 ltac:(rewrite VK; lra)) as (F & N); [rewrite V4, VK; apply Rabs_le; lra|]. rewrite V4, VK in N. rewrite (Rabs_pos_eq (4 / 1000)) in N by lra. apply Rabs_le_inv in N.
    assert (L : List.length (timegrid (p_t1 strict_problem) (p_t2 strict_problem)) = 5).
    { apply (grid_length_n ratexp fid fid sum_right (dZ 0) (p_t2 strict_problem) F0 F 1 ltac:(lra)) with (n := 4).
      - rewrite V0, Rabs_R0. lra.
      - apply Rabs_le. change (B2R (p_t2 strict_problem)) with (B2R (Bdiv mode_NE (dZ 4) (dZ 1000))). unfold u, eta in N. lra.
      - rewrite V0. apply Rabs_le. change (B2R (p_t2 strict_problem)) with (B2R (Bdiv mode_NE (dZ 4) (dZ 1000))). unfold u, eta in N. cbn [INR]. lra. }
    unfold timegrid, np_arange in *. rewrite map_length, seq_length in L. rewrite L. reflexivity.
  Qed.
  Example C83_example_finite : exists o s', construct StrictExt strict_problem 0 = (Ok o, s') /\ List.length (o_grid o) = 5 /\ uniform_finite StrictExt /\
    (forall t d n, 1 <= t < 4 -> d < 2 -> n < 4 -> finite (get3 (o_Z o) d n t)) /\ (forall t d n, 2 <= t < 5 -> d < 2 -> n < 4 -> number (get3 (o_Z o) d n t)).
  Proof.
    assert (R : exists o s', construct StrictExt strict_problem 0 = (Ok o, s')).
    { apply run5; [reflexivity|exact grid5_eq|reflexivity|reflexivity]. }
    destruct R as (o & s' & R). exists o, s'. split; [exact R|]. assert (L : List.length (o_grid o) = 5) by (rewrite (Flows.grid_eq _ _ _ _ _ R), grid5_eq; reflexivity). split; [exact L|]. split; [exact strict_finite|]. split.
    - intros t d n Ht Hd Hn. apply (C83_forward_finite ratexp fid fid sum_right StrictExt strict_problem 0 o s' R strict_finite eq_refl); try lia; cbn; lia.
    - intros t d n Ht Hd Hn. apply (C83_forward_no_nan ratexp fid fid sum_right StrictExt strict_problem 0 o s' R strict_finite); try lia; cbn; lia.
  Qed.
End Strict.
