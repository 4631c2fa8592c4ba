(** An optimal transport plan exists. *)
From Coq Require Import List Reals Lra Lia Bool.
From Verif Require Import Base.Num Base.Py Base.Arr Spec.RealSpec Spec.Contracts Lib.RSum Lib.LP.
Import ListNotations.
Local Open Scope R_scope.

Lemma sumn_mul n m f : sumn (n * m) f = sumn n (fun i => sumn m (fun j => f (i * m + j)%nat)).
Proof. induction n as [|n IH]; [reflexivity|]. rewrite Nat.mul_succ_l, sumn_app. cbn [sumn]. now rewrite IH. Qed.
Lemma divn i j m : (j < m)%nat -> ((i * m + j) / m = i /\ (i * m + j) mod m = j)%nat.
Proof.
  intro H. split.
  - rewrite Nat.add_comm, Nat.div_add by lia. rewrite Nat.div_small; lia.
  - rewrite Nat.add_comm, Nat.mod_add by lia. now apply Nat.mod_small.
Qed.

Section P.
  Context (n : nat) (a b : nat -> R).
  Definition neg (c : cons) : cons := (fun i => - fst c i, - snd c).
  Definition c_pos (v : nat) : cons := (fun w => if Nat.eqb w v then 1 else 0, 0).
  Definition c_row (i : nat) : cons := (fun v => if Nat.eqb (v / n) i then 1 else 0, - a i).
  Definition c_col (j : nat) : cons := (fun v => if Nat.eqb (v mod n) j then 1 else 0, - b j).
  Definition system : list cons := map c_pos (seq 0 (n * n)) ++ map c_row (seq 0 n) ++ map (fun i => neg (c_row i)) (seq 0 n) ++ map c_col (seq 0 n) ++ map (fun j => neg (c_col j)) (seq 0 n).
  Definition mat_of (x : nat -> R) (i j : nat) : R := x (i * n + j)%nat.

  Lemma ev_neg m c x : ev m (neg c) x = - ev m c x.
  Proof. unfold ev, neg. cbn [fst snd]. rewrite (sumn_ext m _ (fun i => - (fst c i * x i))) by (intros; ring). rewrite sumn_opp. ring. Qed.
  Lemma ev_pos x v : (v < n * n)%nat -> ev (n * n) (c_pos v) x = x v.
  Proof.
    intro H. unfold ev, c_pos. cbn [fst snd]. rewrite (sumn_ext _ _ (fun w => if Nat.eqb w v then x w else 0)) by (intros; destruct (Nat.eqb i v); ring).
    rewrite sumn_delta by auto. ring.
  Qed.
  Lemma ev_row x i : (i < n)%nat -> ev (n * n) (c_row i) x = sumn n (fun j => mat_of x i j) - a i.
  Proof.
    intro H. unfold ev, c_row. cbn [fst snd]. rewrite sumn_mul.
    rewrite (sumn_ext n _ (fun k => if Nat.eqb k i then sumn n (fun j => mat_of x k j) else 0)).
    - rewrite (sumn_delta n i (fun k => sumn n (fun j => mat_of x k j))) by auto. ring.
    - intros k Hk. destruct (Nat.eqb_spec k i) as [->|Hne].
      + apply sumn_ext. intros j Hj. rewrite (proj1 (divn i j n Hj)), Nat.eqb_refl. unfold mat_of. ring.
      + apply sumn_0. intros j Hj. rewrite (proj1 (divn k j n Hj)). destruct (Nat.eqb_spec k i); [congruence|ring].
  Qed.
  Lemma ev_col x j : (j < n)%nat -> ev (n * n) (c_col j) x = sumn n (fun i => mat_of x i j) - b j.
  Proof.
    intro H. unfold ev, c_col. cbn [fst snd]. rewrite sumn_mul. unfold Rminus. f_equal. apply sumn_ext. intros i Hi.
    rewrite (sumn_ext n _ (fun k => if Nat.eqb k j then mat_of x i k else 0)).
    - now rewrite (sumn_delta n j (fun k => mat_of x i k)).
    - intros k Hk. rewrite (proj2 (divn i k n Hk)). unfold mat_of. destruct (Nat.eqb k j); ring.
  Qed.
  Lemma system_plan x : sat (n * n) system x <-> plan n a b (mat_of x).
  Proof.
    split.
    - intro H.
      assert (G : forall c, In c (map c_pos (seq 0 (n * n))) \/ In c (map c_row (seq 0 n)) \/ In c (map (fun i => neg (c_row i)) (seq 0 n)) \/ In c (map c_col (seq 0 n)) \/ In c (map (fun j => neg (c_col j)) (seq 0 n)) -> 0 <= ev (n * n) c x).
      { intros c Hc. apply H. unfold system. rewrite !in_app_iff. tauto. }
      assert (IS : forall {B} (f : nat -> B) m i, (i < m)%nat -> In (f i) (map f (seq 0 m))) by (intros; apply in_map, in_seq; lia).
      split; [|split].
      + intros i j Hi Hj. unfold mat_of. rewrite <- ev_pos by nia. apply G. left. apply IS. nia.
      + intros i Hi. pose proof (G (c_row i) ltac:(right; left; now apply IS)) as G1. pose proof (G (neg (c_row i)) ltac:(right; right; left; now apply (IS _ (fun i => neg (c_row i))))) as G2.
        rewrite ev_neg in G2. rewrite ev_row in G1, G2 by auto. lra.
      + intros j Hj. pose proof (G (c_col j) ltac:(right; right; right; left; now apply IS)) as G1. pose proof (G (neg (c_col j)) ltac:(right; right; right; right; now apply (IS _ (fun i => neg (c_col i))))) as G2.
        rewrite ev_neg in G2. rewrite ev_col in G1, G2 by auto. lra.
    - intros (H1 & H2 & H3) c Hc. unfold system in Hc. rewrite !in_app_iff in Hc.
      destruct Hc as [Hc|[Hc|[Hc|[Hc|Hc]]]]; apply in_map_iff in Hc; destruct Hc as (i & <- & Hi); apply in_seq in Hi; rewrite ?ev_neg.
      + rewrite ev_pos by lia. assert (n <> 0)%nat by (intro; subst; lia). rewrite (Nat.div_mod_eq i n), (Nat.mul_comm n). apply H1; [apply Nat.div_lt_upper_bound; lia|apply Nat.mod_upper_bound; lia].
      + rewrite ev_row by lia. rewrite H2 by lia. lra.
      + rewrite ev_row by lia. rewrite H2 by lia. lra.
      + rewrite ev_col by lia. rewrite H3 by lia. lra.
      + rewrite ev_col by lia. rewrite H3 by lia. lra.
  Qed.

  Definition flatten (P : nat -> nat -> R) (v : nat) : R := P (v / n)%nat (v mod n)%nat.
  Lemma mat_of_flatten P i j : (j < n)%nat -> mat_of (flatten P) i j = P i j.
  Proof. intro H. unfold mat_of, flatten. destruct (divn i j n H) as (-> & ->). reflexivity. Qed.
  Lemma plan_of_ext P Q : (forall i j, (i < n)%nat -> (j < n)%nat -> P i j = Q i j) -> plan n a b P -> plan n a b Q.
  Proof.
    intros H (H1 & H2 & H3). split; [|split].
    - intros. rewrite <- H; auto.
    - intros i Hi. rewrite <- (H2 i Hi). apply sumn_ext. intros. symmetry. auto.
    - intros j Hj. rewrite <- (H3 j Hj). apply sumn_ext. intros. symmetry. auto.
  Qed.

  Context (Ha : forall i, (i < n)%nat -> 0 <= a i) (Hb : forall i, (i < n)%nat -> 0 <= b i) (Hab : sumn n a = sumn n b).
  Lemma plan_exists : exists P, plan n a b P.
  Proof.
    destruct (Req_dec (sumn n a) 0) as [Z|NZ].
    - exists (fun _ _ => 0). split; [intros; lra|]. split.
      + intros i Hi. rewrite sumn_0 by auto. symmetry. now apply (sumn_0_inv n a Ha Z).
      + intros i Hi. rewrite sumn_0 by auto. symmetry. apply (sumn_0_inv n b Hb); auto. lra.
    - assert (Hp : 0 < sumn n a) by (pose proof (sumn_ge0 n a Ha); lra). exists (fun i j => a i * b j / sumn n a). split; [|split].
      + intros. apply Rmult_le_pos; [apply Rmult_le_pos; auto|]. left. now apply Rinv_0_lt_compat.
      + intros i Hi. rewrite sumn_div, sumn_scal, <- Hab. field. lra.
      + intros j Hj. rewrite sumn_div, sumn_scal_r. field. lra.
  Qed.
  Theorem optimal_exists (c : nat -> nat -> R) : (forall i j, (i < n)%nat -> (j < n)%nat -> 0 <= c i j) -> exists P, optimal n a b c P.
  Proof.
    intro Hc.
    assert (Cost : forall x, sumn (n * n) (fun v => flatten c v * x v) = plan_cost n c (mat_of x)).
    { intro x. rewrite sumn_mul. unfold plan_cost. apply sumn_ext. intros i Hi. apply sumn_ext. intros j Hj. unfold flatten. destruct (divn i j n Hj) as (-> & ->). reflexivity. }
    destruct (lp_min (n * n) system (flatten c)) as (x & Hx & Hmin).
    - destruct plan_exists as (P & HP). exists (flatten P). apply system_plan. eapply plan_of_ext; [|exact HP]. intros. symmetry. now apply mat_of_flatten.
    - intros x Hx. rewrite Cost. apply system_plan in Hx. unfold plan_cost. apply sumn_ge0. intros i Hi. apply sumn_ge0. intros j Hj. apply Rmult_le_pos; [auto|]. now apply Hx.
    - exists (mat_of x). split; [now apply system_plan|]. intros Q HQ. rewrite <- Cost.
      assert (Fl : plan_cost n c Q = sumn (n * n) (fun v => flatten c v * flatten Q v)).
      { rewrite Cost. unfold plan_cost. apply sumn_ext. intros i Hi. apply sumn_ext. intros j Hj. now rewrite mat_of_flatten. }
      rewrite Fl. apply Hmin. apply system_plan. eapply plan_of_ext; [|exact HQ]. intros. symmetry. now apply mat_of_flatten.
  Qed.
End P.
