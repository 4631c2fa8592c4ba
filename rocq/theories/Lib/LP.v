(** Existence of minimisers of linear programs, by Fourier-Motzkin elimination; used only to exhibit a transport solver that
    meets its contract (Run/RealExt.v). *)
From Coq Require Import List Reals Lra Lia Bool.
From Verif Require Import Spec.RealSpec Lib.RSum.
Import ListNotations.
Local Open Scope R_scope.

(** constraints 0 <= sum_{i<n} a_i x_i + b *)
Definition cons := ((nat -> R) * R)%type.
Definition ev (n : nat) (c : cons) (x : nat -> R) : R := sumn n (fun i => fst c i * x i) + snd c.
Definition sat (n : nat) (L : list cons) (x : nat -> R) : Prop := forall c, In c L -> 0 <= ev n c x.
Definition ext (n : nat) (x : nat -> R) (y : R) : nat -> R := fun i => if Nat.eqb i n then y else x i.

Lemma separate (lo hi : list R) : (forall l h, In l lo -> In h hi -> l <= h) -> exists y, (forall l, In l lo -> l <= y) /\ (forall h, In h hi -> y <= h).
Proof.
  induction lo as [|l lo IH]; intro H.
  - induction hi as [|h hi IHh]. { exists 0. split; intros ? []. }
    destruct IHh as (y & _ & Hy). { intros ? ? []. } exists (Rmin y h). split; [intros ? []|]. intros v [->|Hv]; [apply Rmin_r|]. eapply Rle_trans; [apply Rmin_l|auto].
  - destruct IH as (y & H1 & H2). { intros. apply H; [now right|auto]. } exists (Rmax y l). split.
    + intros v [->|Hv]; [apply Rmax_r|]. eapply Rle_trans; [|apply Rmax_l]. auto.
    + intros h Hh. apply Rmax_lub; auto. apply H; [now left|auto].
Qed.

Lemma ev_ext n c x y : ev (S n) c (ext n x y) = ev n c x + fst c n * y.
Proof.
  unfold ev. cbn [sumn]. unfold ext at 2. rewrite Nat.eqb_refl.
  rewrite (sumn_ext n (fun i => fst c i * ext n x y i) (fun i => fst c i * x i)). { ring. }
  intros i Hi. unfold ext. destruct (Nat.eqb_spec i n); [lia|auto].
Qed.

Definition comb (u v : R) (c e : cons) : cons := (fun i => u * fst c i + v * fst e i, u * snd c + v * snd e).
Lemma ev_comb n u v c e x : ev n (comb u v c e) x = u * ev n c x + v * ev n e x.
Proof.
  unfold ev, comb. cbn [fst snd]. rewrite (sumn_ext n _ (fun i => u * (fst c i * x i) + v * (fst e i * x i))) by (intros; ring).
  rewrite sumn_plus, !sumn_scal. ring.
Qed.

Definition isp (n : nat) (c : cons) : bool := if Rlt_dec 0 (fst c n) then true else false.
Definition isn (n : nat) (c : cons) : bool := if Rlt_dec (fst c n) 0 then true else false.
Definition isz (n : nat) (c : cons) : bool := negb (isp n c) && negb (isn n c).
Definition elim (n : nat) (L : list cons) : list cons :=
  filter (isz n) L ++ flat_map (fun p => map (fun q => comb (- fst q n) (fst p n) p q) (filter (isn n) L)) (filter (isp n) L).

Lemma elim_spec n L x : sat n (elim n L) x <-> exists y, sat (S n) L (ext n x y).
Proof.
  split.
  - intro H.
    destruct (separate (map (fun p => - ev n p x / fst p n) (filter (isp n) L)) (map (fun q => - ev n q x / fst q n) (filter (isn n) L))) as (y & Y1 & Y2).
    + intros l h Hl Hh. apply in_map_iff in Hl, Hh. destruct Hl as (p & <- & Hp), Hh as (q & <- & Hq).
      assert (Hc : 0 <= ev n (comb (- fst q n) (fst p n) p q) x).
      { apply H. apply in_or_app. right. apply in_flat_map. exists p. split; [auto|]. apply in_map_iff. eauto. }
      rewrite ev_comb in Hc. apply filter_In in Hp, Hq. destruct Hp as (_ & Hp), Hq as (_ & Hq). unfold isp in Hp. unfold isn in Hq.
      destruct (Rlt_dec 0 (fst p n)) as [Pp|]; [|discriminate]. destruct (Rlt_dec (fst q n) 0) as [Qn|]; [|discriminate].
      set (a := fst p n) in *. set (b := fst q n) in *. set (u := ev n p x) in *. set (v := ev n q x) in *.
      apply (Rmult_le_reg_r (a * - b)). { apply Rmult_lt_0_compat; lra. }
      replace (- u / a * (a * - b)) with (u * b) by (field; lra). replace (- v / b * (a * - b)) with (v * a) by (field; lra). lra.
    + exists y. intros c Hc. rewrite ev_ext. destruct (Rtotal_order (fst c n) 0) as [Q|[Q|Q]].
      * assert (In c (filter (isn n) L)) as Hf. { apply filter_In. split; [auto|]. unfold isn. destruct (Rlt_dec (fst c n) 0); [auto|lra]. }
        specialize (Y2 _ (in_map (fun q => - ev n q x / fst q n) _ _ Hf)). apply (Rmult_le_compat_neg_l (fst c n)) in Y2; [|lra].
        replace (fst c n * (- ev n c x / fst c n)) with (- ev n c x) in Y2 by (field; lra). lra.
      * rewrite Q. assert (0 <= ev n c x); [|lra]. apply H. apply in_or_app. left. apply filter_In. split; [auto|].
        unfold isz, isp, isn. rewrite Q. destruct (Rlt_dec 0 0); [lra|]. reflexivity.
      * assert (In c (filter (isp n) L)) as Hf. { apply filter_In. split; [auto|]. unfold isp. destruct (Rlt_dec 0 (fst c n)); [auto|lra]. }
        specialize (Y1 _ (in_map (fun q => - ev n q x / fst q n) _ _ Hf)). apply (Rmult_le_compat_l (fst c n)) in Y1; [|lra].
        replace (fst c n * (- ev n c x / fst c n)) with (- ev n c x) in Y1 by (field; lra). lra.
  - intros (y & H) c Hc. apply in_app_or in Hc. destruct Hc as [Hc|Hc].
    + apply filter_In in Hc. destruct Hc as (Hc & Hz). specialize (H c Hc). rewrite ev_ext in H. unfold isz, isp, isn in Hz.
      destruct (Rlt_dec 0 (fst c n)), (Rlt_dec (fst c n) 0); try discriminate. assert (fst c n = 0) as Q by lra. rewrite Q in H. lra.
    + apply in_flat_map in Hc. destruct Hc as (p & Hp & Hc). apply in_map_iff in Hc. destruct Hc as (q & <- & Hq). rewrite ev_comb.
      apply filter_In in Hp, Hq. destruct Hp as (Lp & Hp), Hq as (Lq & Hq). unfold isp in Hp. unfold isn in Hq.
      destruct (Rlt_dec 0 (fst p n)) as [Pp|]; [|discriminate]. destruct (Rlt_dec (fst q n) 0) as [Qn|]; [|discriminate].
      pose proof (H p Lp) as H1. pose proof (H q Lq) as H2. rewrite ev_ext in H1, H2.
      apply (Rmult_le_compat_l (- fst q n)) in H1; [|lra]. apply (Rmult_le_compat_l (fst p n)) in H2; [|lra]. rewrite Rmult_0_r in H1, H2. lra.
Qed.

(** eliminate the variables 1..n, keeping variable 0 *)
Lemma sat_ext n L x x' : (forall i, (i < n)%nat -> x i = x' i) -> sat n L x -> sat n L x'.
Proof. intros H Hs c Hc. specialize (Hs c Hc). unfold ev in *. rewrite (sumn_ext n _ (fun i => fst c i * x i)); [auto|]. intros. now rewrite H. Qed.
Lemma project n L : exists L', forall t, sat 1 L' (fun _ => t) <-> exists x, x O = t /\ sat (S n) L x.
Proof.
  revert L. induction n as [|n IH]; intro L.
  - exists L. intro t. split.
    + intro H. exists (fun _ => t). auto.
    + intros (x & Hx & H). eapply sat_ext; [|exact H]. intros i Hi. now replace i with O by lia.
  - destruct (IH (elim (S n) L)) as (L' & HL). exists L'. intro t. rewrite HL. split.
    + intros (x & Hx & H). apply elim_spec in H. destruct H as (y & H). exists (ext (S n) x y). split; [exact Hx|exact H].
    + intros (x & Hx & H). exists x. split; [auto|]. apply elim_spec. exists (x (S n)). eapply sat_ext; [|exact H].
      intros i Hi. unfold ext. destruct (Nat.eqb_spec i (S n)); [subst|]; auto.
Qed.
Lemma min1 L : (exists t, sat 1 L (fun _ => t)) -> (forall t, sat 1 L (fun _ => t) -> 0 <= t) -> exists t, sat 1 L (fun _ => t) /\ forall t', sat 1 L (fun _ => t') -> t <= t'.
Proof.
  intros (t0 & H0) Hb.
  assert (EV : forall c t, ev 1 c (fun _ => t) = fst c O * t + snd c) by (intros; unfold ev; cbn; ring).
  destruct (separate (map (fun c => - snd c / fst c O) (filter (isp 0) L)) [t0]) as (t & T1 & T2).
  { intros l h Hl [<-|[]]. apply in_map_iff in Hl. destruct Hl as (c & <- & Hc). apply filter_In in Hc. destruct Hc as (Hc & Hp). specialize (H0 c Hc). rewrite EV in H0.
    unfold isp in Hp. destruct (Rlt_dec 0 (fst c O)); [|discriminate]. apply (Rmult_le_reg_l (fst c O)); [auto|]. replace (fst c O * (- snd c / fst c O)) with (- snd c) by (field; lra). lra. }
  clear t T1 T2.
  assert (G : forall M : list R, M <> [] -> exists m, In m M /\ forall v, In v M -> v <= m).
  { induction M as [|v M IH]; intro Hn; [congruence|]. destruct M as [|v' M]. { exists v. split; [now left|]. intros w [->|[]]. lra. }
    destruct IH as (m & M1 & M2); [discriminate|]. destruct (Rle_or_lt v m).
    - exists m. split; [now right|]. intros w [->|Hw]; auto.
    - exists v. split; [now left|]. intros w [->|Hw]; [lra|]. specialize (M2 w Hw). lra. }
  set (lo := map (fun c => - snd c / fst c O) (filter (isp 0) L)).
  assert (Hlo : forall c t, In c L -> 0 < fst c O -> (0 <= ev 1 c (fun _ => t) <-> - snd c / fst c O <= t)).
  { intros c t Hc Hp. rewrite EV. split; intro H.
    - apply (Rmult_le_reg_l (fst c O)); [auto|]. replace (fst c O * (- snd c / fst c O)) with (- snd c) by (field; lra). lra.
    - apply (Rmult_le_compat_l (fst c O)) in H; [|lra]. replace (fst c O * (- snd c / fst c O)) with (- snd c) in H by (field; lra). lra. }
  assert (Down : forall t, t <= t0 -> (forall v, In v lo -> v <= t) -> sat 1 L (fun _ => t)).
  { intros t Ht Hv c Hc. pose proof (H0 c Hc) as Hc0. rewrite EV in *. destruct (Rtotal_order (fst c O) 0) as [Q|[Q|Q]].
    - apply (Rmult_le_compat_neg_l (fst c O)) in Ht; lra.
    - rewrite Q in *. lra.
    - rewrite <- EV. apply Hlo; auto. apply Hv. apply in_map_iff. exists c. split; [auto|]. apply filter_In. split; [auto|]. unfold isp. destruct (Rlt_dec 0 (fst c O)); [auto|lra]. }
  destruct lo as [|v lo'] eqn:El.
  - exfalso. assert (sat 1 L (fun _ => - 1 - Rabs t0)) as Hm. { apply Down; [|intros ? []]. pose proof (Rabs_pos t0). pose proof (Rle_abs (- t0)). rewrite Rabs_Ropp in *. lra. }
    apply Hb in Hm. pose proof (Rabs_pos t0). lra.
  - rewrite <- El in *. destruct (G lo) as (m & M1 & M2); [rewrite El; discriminate|].
    assert (Lm : forall t, sat 1 L (fun _ => t) -> m <= t).
    { intros t Ht. unfold lo in M1. apply in_map_iff in M1. destruct M1 as (c & <- & Hc). apply filter_In in Hc. destruct Hc as (Hc & Hp). unfold isp in Hp. destruct (Rlt_dec 0 (fst c O)); [|discriminate].
      apply Hlo; auto. }
    exists m. split; [|exact Lm]. apply Down; auto.
Qed.

Theorem lp_min n (L : list cons) (c : nat -> R) : (exists x, sat n L x) -> (forall x, sat n L x -> 0 <= sumn n (fun i => c i * x i)) ->
  exists x, sat n L x /\ forall y, sat n L y -> sumn n (fun i => c i * x i) <= sumn n (fun i => c i * y i).
Proof.
  intros (x0 & H0) Hb.
  set (sh := fun e : cons => (fun i => match i with O => 0 | S j => fst e j end, snd e) : cons).
  set (obj := (fun i => match i with O => 1 | S j => - c j end, 0) : cons).
  assert (SH : forall e z, ev (S n) (sh e) z = ev n e (fun i => z (S i))).
  { intros e z. unfold ev, sh. cbn [fst snd]. f_equal. clear. induction n as [|m IH]; cbn [sumn] in *; [cbn; ring|]. rewrite IH. reflexivity. }
  assert (OB : forall z, ev (S n) obj z = z O - sumn n (fun i => c i * z (S i))).
  { intro z. unfold ev, obj. cbn [fst snd]. rewrite Rplus_0_r. clear. induction n as [|m IH]; cbn [sumn] in *; [cbn; ring|]. rewrite IH. ring. }
  destruct (project n (obj :: map sh L)) as (L' & HL).
  assert (Char : forall t, sat 1 L' (fun _ => t) <-> exists x, sat n L x /\ sumn n (fun i => c i * x i) <= t).
  { intro t. rewrite HL. split.
    - intros (z & <- & Hz). exists (fun i => z (S i)). split.
      + intros e He. rewrite <- SH. apply Hz. right. now apply in_map.
      + specialize (Hz obj (or_introl eq_refl)). rewrite OB in Hz. lra.
    - intros (x & Hx & Ht). exists (fun i => match i with O => t | S j => x j end). split; [reflexivity|]. intros e [<-|He].
      + rewrite OB. lra.
      + apply in_map_iff in He. destruct He as (e' & <- & He). rewrite SH. now apply Hx. }
  destruct (min1 L') as (t & T1 & T2).
  { exists (sumn n (fun i => c i * x0 i)). apply Char. exists x0. split; [auto|lra]. }
  { intros t Ht. apply Char in Ht. destruct Ht as (x & Hx & Hle). specialize (Hb x Hx). lra. }
  apply Char in T1. destruct T1 as (x & Hx & Hle). exists x. split; [auto|]. intros y Hy.
  specialize (T2 (sumn n (fun i => c i * y i))). eapply Rle_trans; [exact Hle|]. apply T2. apply Char. exists y. split; [auto|lra].
Qed.
