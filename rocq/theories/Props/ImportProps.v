(** C55: at this commit the package cannot be imported. *)
From Coq Require Import String List Bool.
From Verif Require Import Model.Imports.
Import ListNotations.
Open Scope string_scope.

Notation D := "DeterministicParticleFlowControl".
Lemma peqb_eq a : forall b, peqb a b = true <-> a = b.
Proof.
  induction a as [|x a IH]; intros [|y b]; cbn; split; intro H; try discriminate; auto.
  - apply andb_true_iff in H. destruct H as (H1 & H2). apply String.eqb_eq in H1. apply IH in H2. congruence.
  - injection H as <- <-. rewrite String.eqb_refl. cbn. now apply IH.
Qed.
Lemma mem_remove m x l : mem m (remove x l) = negb (peqb x m) && mem m l.
Proof.
  unfold mem, remove. induction l as [|y l IH]; cbn; [now rewrite andb_false_r|]. destruct (peqb x y) eqn:Q; cbn.
  - rewrite IH. apply peqb_eq in Q. subst y. destruct (peqb x m) eqn:Q; [reflexivity|]. cbn.
    destruct (peqb m x) eqn:Q'; [|reflexivity]. apply peqb_eq in Q'. subst m. assert (peqb x x = true) by now apply peqb_eq. congruence.
  - rewrite IH. destruct (peqb x m) eqn:Q1; cbn; [|reflexivity]. apply peqb_eq in Q1. subst x. rewrite Q. reflexivity.
Qed.
Lemma mem_cons m x l : mem m (x :: l) = peqb m x || mem m l.
Proof. reflexivity. Qed.

Opaque mem remove.

(** *** one statement at a time *)
Section Steps.
  Context (line11 : stmt) (r : root) (inst : string -> bool).
  Notation ex := (exec line11 r inst).
  Definition runner n : path -> bool -> list stmt -> list path -> outcome * list path :=
    fun m pkg b l => let '(o, _, l') := ex n m pkg [] b l in (o, l').
  Notation imp n := (import_from line11 r (runner n)).

  Lemma ex_nil n m pkg fl l : ex (S n) m pkg fl [] l = (Fine, fl, l).
  Proof. reflexivity. Qed.
  Lemma ex_third n m pkg fl x b l : ex (S n) m pkg fl (Third x :: b) l = if inst x then ex n m pkg fl b l else (ImportError, fl, l).
  Proof. cbn. now destruct (inst x). Qed.
  Lemma ex_try n m pkg fl x f b l : ex (S n) m pkg fl (TryThird x f :: b) l = ex n m pkg (if inst x then f :: fl else fl) b l.
  Proof. reflexivity. Qed.
  Lemma ex_from1 n m pkg fl p b l : ex (S n) m pkg fl (From1 p :: b) l =
    match imp n (parent m pkg) p l with (Fine, l1) => ex n m pkg fl b l1 | (e, l1) => (e, fl, l1) end.
  Proof. cbn. fold (runner n). destruct (imp n (parent m pkg) p l) as [[] l1]; reflexivity. Qed.
  Lemma ex_abs n m pkg fl x p b l pk bd : find line11 r [x] = Some (pk, bd) -> ex (S n) m pkg fl (FromAbs (x :: p) :: b) l =
    match imp n [] (x :: p) l with (Fine, l1) => ex n m pkg fl b l1 | (e, l1) => (e, fl, l1) end.
  Proof. intro H. cbn [exec]. rewrite H. fold (runner n). destruct (imp n [] (x :: p) l) as [[] l1]; reflexivity. Qed.
  Lemma ex_name_yes n m pkg fl a b bd l : ex (S n) m pkg fl (IfName (dotted m) a b :: bd) l =
    match ex n m pkg fl a l with (Fine, fl1, l1) => ex n m pkg fl1 bd l1 | (e, fl1, l1) => (e, fl1, l1) end.
  Proof. cbn [exec]. rewrite String.eqb_refl. destruct (ex n m pkg fl a l) as [[[] fl1] l1]; reflexivity. Qed.
  Lemma ex_name_no n m pkg fl x a b bd l : String.eqb x (dotted m) = false -> ex (S n) m pkg fl (IfName x a b :: bd) l =
    match ex n m pkg fl b l with (Fine, fl1, l1) => ex n m pkg fl1 bd l1 | (e, fl1, l1) => (e, fl1, l1) end.
  Proof. intro H. cbn [exec]. rewrite H. destruct (ex n m pkg fl b l) as [[[] fl1] l1]; reflexivity. Qed.
  Lemma imp_nil n pre l : imp n pre [] l = (Fine, l).
  Proof. reflexivity. Qed.
  Lemma imp_loaded n pre x rest l : mem (pre ++ [x])%list l = true -> imp n pre (x :: rest) l = imp n (pre ++ [x])%list rest l.
  Proof. intro H. cbn [import_from]. now rewrite H. Qed.
  Lemma imp_missing n pre x rest l : mem (pre ++ [x])%list l = false -> find line11 r (pre ++ [x])%list = None ->
    imp n pre (x :: rest) l = (ImportError, l).
  Proof. intros H F. cbn [import_from]. now rewrite H, F. Qed.
  Lemma imp_new n pre x rest l pkg body : mem (pre ++ [x])%list l = false -> find line11 r (pre ++ [x])%list = Some (pkg, body) ->
    imp n pre (x :: rest) l =
      let m := (pre ++ [x])%list in
      match ex n m pkg [] body (m :: l) with (Fine, _, l') => imp n m rest l' | (e, _, l') => (e, remove m l') end.
  Proof.
    intros H F. cbn [import_from]. rewrite H, F. cbv zeta. unfold runner at 1. destruct (ex n _ pkg [] body _) as [[[] fl1] l1]; reflexivity.
  Qed.
End Steps.

Opaque exec import_from.
(** l' contains nothing but elements of l and of s *)
Definition grows (s l l' : list path) : Prop := forall m, mem m l' = true -> mem m l = true \/ In m s.
Lemma grows_refl s l : grows s l l. Proof. intros m H; auto. Qed.
Lemma grows_trans s1 s2 l1 l2 l3 : grows s1 l1 l2 -> grows s2 l2 l3 -> grows (s1 ++ s2)%list l1 l3.
Proof. intros H1 H2 m H. apply H2 in H. destruct H as [H|H]; [|right; apply in_or_app; auto]. apply H1 in H. destruct H; auto. right. apply in_or_app. auto. Qed.
Lemma grows_remove s x l l' : grows s (x :: l) l' -> grows s l (remove x l').
Proof.
  intros H m Hm. rewrite mem_remove in Hm. apply andb_true_iff in Hm. destruct Hm as (H1 & H2). apply H in H2.
  destruct H2 as [H2|H2]; auto. rewrite mem_cons in H2. apply orb_true_iff in H2. destruct H2 as [H2|H2]; auto.
  apply peqb_eq in H2. subst x. assert (peqb m m = true) by now apply peqb_eq. rewrite H0 in H1. discriminate.
Qed.
Lemma grows_cons s x l : In x s -> grows s l (x :: l).
Proof. intros Hx m H. rewrite mem_cons in H. apply orb_true_iff in H. destruct H as [H|H]; auto. apply peqb_eq in H. subst x. auto. Qed.
Lemma grows_weaken s s' l l' : (forall m, In m s -> In m s') -> grows s l l' -> grows s' l l'.
Proof. intros Hs H m Hm. apply H in Hm. destruct Hm; auto. Qed.

(** no module of the set is loaded *)
Definition none_of (s l : list path) : Prop := forall m, In m s -> mem m l = false.
Lemma none_grows s s' l l' : none_of s l -> grows s' l l' -> (forall m, In m s -> ~ In m s') -> none_of s l'.
Proof.
  intros H G Hd m Hm. destruct (mem m l') eqn:Q; auto. apply G in Q. destruct Q as [Q|Q]; [rewrite H in Q; [discriminate|auto]|]. exfalso. eapply Hd; eauto.
Qed.

Notation SE := "score_estimators". Notation SFE := "score_function_estimators". Notation PT := "score_function_estimators_pytorch".

Section Broken.
  Context (r : root) (inst : string -> bool) (P : path).
  Context (HP : forall q, q <> [] -> find torch_line11 r (P ++ q)%list = file torch_line11 q).
  Notation ex := (exec torch_line11 r inst).
  Notation imp n := (import_from torch_line11 r (runner torch_line11 r inst n)).

  Definition bad_se : list path := [(P ++ [SE])%list; (P ++ [SE; PT])%list; (P ++ [SE; "kernels"])%list].

  Lemma pt_fails n fl l : mem (P ++ [SE; "kernels"])%list l = false ->
    ex (S (S (S n))) (P ++ [SE; PT])%list false fl [Third "torch"; Third "numpy"; torch_line11] l = (ImportError, fl, l).
  Proof.
    intro H. rewrite ex_third. destruct (inst "torch"); [|reflexivity]. rewrite ex_third. destruct (inst "numpy"); [|reflexivity].
    unfold torch_line11. rewrite ex_from1. unfold parent.
    replace (removelast (P ++ [SE; PT])%list) with (P ++ [SE])%list by (rewrite removelast_app by discriminate; reflexivity).
    fold torch_line11. rewrite imp_missing; [reflexivity| |]; rewrite <- app_assoc; cbn [app]; [exact H|]. now rewrite HP.
  Qed.

  Lemma se_body_fails n fl l : none_of bad_se l \/ none_of (tl bad_se) l ->
    exists l', ex (S (S (S (S (S (S n)))))) (P ++ [SE])%list true fl [From1 [SFE]; From1 [PT]] l = (ImportError, fl, l') /\
      grows [(P ++ [SE; SFE])%list] l l'.
  Proof.
    intro H. assert (HN : none_of (tl bad_se) l). { destruct H as [H|H]; [|exact H]. intros m Hm. apply H. right. exact Hm. } clear H.
    rewrite ex_from1. cbn [parent].
    assert (HS : exists o l1, imp (S (S (S (S (S n))))) (P ++ [SE])%list [SFE] l = (o, l1) /\ o <> Deep /\ grows [(P ++ [SE; SFE])%list] l l1).
    { destruct (mem (P ++ [SE; SFE])%list l) eqn:Q.
      - rewrite imp_loaded by (rewrite <- app_assoc; exact Q). rewrite imp_nil. eexists _, _. split; [reflexivity|]. split; [discriminate|apply grows_refl].
      - rewrite (imp_new _ _ _ _ _ _ _ _ false [Third "numpy"; Third "scipy"; Third "numba"]).
        + rewrite <- app_assoc. cbn [app]. cbv zeta. rewrite !ex_third.
          assert (G : grows [(P ++ [SE; SFE])%list] l ((P ++ [SE; SFE]) :: l)%list) by (apply grows_cons; now left).
          destruct (inst "numpy"); [destruct (inst "scipy"); [destruct (inst "numba")|]|]; rewrite ?ex_nil, ?imp_nil; eexists _, _;
            (split; [reflexivity|split; [discriminate|]]); auto; apply grows_remove; apply grows_refl.
        + rewrite <- app_assoc. exact Q.
        + rewrite <- app_assoc. cbn [app]. now rewrite HP. }
    destruct HS as (o & l1 & HS & Ho & G). rewrite HS. destruct o; [|eexists; split; [reflexivity|exact G]|congruence].
    rewrite ex_from1. cbn [parent].
    assert (HN1 : none_of (tl bad_se) l1).
    { eapply none_grows; eauto. intros m Hm [<-|[]]. cbn in Hm. destruct Hm as [Hm|[Hm|[]]]; apply app_inv_head in Hm; discriminate. }
    rewrite (imp_new _ _ _ _ _ _ _ _ false [Third "torch"; Third "numpy"; torch_line11]).
    - rewrite <- app_assoc. cbn [app]. cbv zeta. rewrite pt_fails.
      + eexists. split; [reflexivity|]. intros m Hm. apply G. pose proof (grows_remove [] (P ++ [SE; PT])%list l1 ((P ++ [SE; PT]) :: l1)%list (grows_refl _ _) m Hm) as [Q|[]]. exact Q.
      + rewrite mem_cons. rewrite (HN1 (P ++ [SE; "kernels"])%list) by (cbn; tauto). rewrite orb_false_r.
        destruct (peqb _ _) eqn:Q; [|reflexivity]. apply peqb_eq in Q. apply app_inv_head in Q. discriminate.
    - rewrite <- app_assoc. apply HN1. cbn. tauto.
    - rewrite <- app_assoc. cbn [app]. now rewrite HP.
  Qed.

  Lemma se_fails n rest l : none_of bad_se l ->
    exists l', imp (S (S (S (S (S (S n)))))) P (SE :: rest) l = (ImportError, l') /\ grows [(P ++ [SE; SFE])%list] l l'.
  Proof.
    intro H. rewrite (imp_new _ _ _ _ _ _ _ _ true [From1 [SFE]; From1 [PT]]).
    - cbv zeta. destruct (se_body_fails n [] ((P ++ [SE]) :: l)%list) as (l' & -> & G).
      { right. intros m Hm. rewrite mem_cons. rewrite (H m) by (right; exact Hm). rewrite orb_false_r. destruct (peqb _ _) eqn:Q; [|reflexivity].
        apply peqb_eq in Q. subst m. cbn in Hm. destruct Hm as [Hm|[Hm|[]]]; apply app_inv_head in Hm; discriminate. }
      eexists. split; [reflexivity|]. now apply grows_remove.
    - apply H. now left.
    - now rewrite HP.
  Qed.
End Broken.

Definition main_body := Eval vm_compute in snd (match file torch_line11 [D] with Some b => b | None => (false, []) end).
(** ** the package, found through sys.path *)
Definition broken_repo : list path := [[D]; [D; D]; [D; SE]; [D; SE; PT]; [D; SE; "kernels"]].
Lemma repo_fails inst rest l : none_of broken_repo l -> exists l',
  import_module torch_line11 Repo inst (D :: rest) l = (ImportError, l') /\ none_of broken_repo l'.
Proof.
  intro H. unfold import_module, fuel. fold (runner torch_line11 Repo inst 40).
  assert (HP : forall q, q <> [] -> find torch_line11 Repo ([D] ++ q)%list = file torch_line11 q) by (intros [|x q] Hq; [congruence|reflexivity]).
  rewrite (imp_new _ _ _ _ _ _ _ _ true [From1 ["version"]; From1 [D]]); [|apply H; cbn; tauto|reflexivity]. cbv zeta. cbn [app].
  assert (K : exists l', exec torch_line11 Repo inst 40 [D] true [] [From1 ["version"]; From1 [D]] ([D] :: l) = (ImportError, [], l') /\
     grows [[D; "version"]; [D; SE; SFE]] ([D] :: l) l').
  2:{ destruct K as (l' & -> & G). eexists. split; [reflexivity|]. apply grows_remove in G.
      eapply none_grows; [exact H|exact G|]. intros m Hm Hm'. cbn in Hm, Hm'.
      repeat match goal with HH : _ \/ _ |- _ => destruct HH end; try contradiction; subst m; discriminate. }
  assert (HN : none_of (tl broken_repo) ([D] :: l)).
  { intros m Hm. rewrite mem_cons. rewrite (H m) by (right; exact Hm). rewrite orb_false_r. cbn in Hm.
    repeat match goal with HH : _ \/ _ |- _ => destruct HH end; try contradiction; subst m; reflexivity. }
  rewrite ex_from1. cbn [parent].
  assert (HV : exists l1, import_from torch_line11 Repo (runner torch_line11 Repo inst 39) [D] ["version"] ([D] :: l) = (Fine, l1) /\ grows [[D; "version"]] ([D] :: l) l1).
  { destruct (mem [D; "version"] ([D] :: l)) eqn:Q.
    - rewrite imp_loaded by exact Q. rewrite imp_nil. eexists. split; [reflexivity|apply grows_refl].
    - rewrite (imp_new _ _ _ _ _ _ _ _ false []); [|exact Q|reflexivity]. cbv zeta. rewrite ex_nil, imp_nil. eexists. split; [reflexivity|].
      apply grows_cons. now left. }
  destruct HV as (l1 & -> & G1). assert (HN1 : none_of (tl broken_repo) l1).
  { eapply none_grows; [exact HN|exact G1|]. intros m Hm [<-|[]]. cbn in Hm. repeat match goal with HH : _ \/ _ |- _ => destruct HH end; try contradiction; discriminate. }
  rewrite ex_from1. cbn [parent].
  rewrite (imp_new _ _ _ _ _ _ _ _ false main_body); [|apply HN1; cbn; tauto|reflexivity].
  cbv zeta. cbn [app]. unfold main_body.
  match goal with |- context [exec _ _ _ 38 [D; D] false [] ?b ?ll] => assert (KM : exists fl2 l2, exec torch_line11 Repo inst 38 [D; D] false [] b ll = (ImportError, fl2, l2) /\ grows [[D; SE; SFE]] ll l2) end.
  { rewrite ex_third. destruct (inst "numpy"); [|eexists _, _; split; [reflexivity|apply grows_refl]].
    rewrite !ex_try, ex_third. destruct (inst "matplotlib"); [|eexists _, _; split; [reflexivity|apply grows_refl]].
    rewrite ex_try. change "DeterministicParticleFlowControl.DeterministicParticleFlowControl" with (dotted [D; D]).
    rewrite ex_name_yes, ex_from1. cbn [parent removelast].
    destruct (se_fails Repo inst [D] HP 25 [SFE] ([D; D] :: l1)) as (l2 & -> & G2).
    { intros m Hm. rewrite mem_cons. rewrite (HN1 m) by (cbn in Hm |- *; tauto). rewrite orb_false_r. cbn in Hm.
      repeat match goal with HH : _ \/ _ |- _ => destruct HH end; try contradiction; subst m; reflexivity. }
    eexists _, _. split; [reflexivity|exact G2]. }
  destruct KM as (fl2 & l2 & -> & G2). eexists. split; [reflexivity|]. apply grows_remove in G2.
  exact (grows_trans _ _ _ _ _ G1 G2).
Qed.

(** ** the package directory itself on sys.path *)
Definition broken_inside : list path := [[D]; [SE]; [SE; PT]; [SE; "kernels"]].
Lemma inside_fails inst x rest l : x = D \/ x = SE -> none_of broken_inside l -> exists l',
  import_module torch_line11 Inside inst (x :: rest) l = (ImportError, l') /\ none_of broken_inside l'.
Proof.
  intros Hx H. unfold import_module, fuel. fold (runner torch_line11 Inside inst 40).
  assert (HP : forall q, q <> [] -> find torch_line11 Inside ([] ++ q)%list = file torch_line11 q) by (intros [|y q] Hq; [congruence|reflexivity]).
  assert (NG : forall s l1 l2, none_of s l1 -> (forall m, In m s -> In m broken_inside) -> grows [[SE; SFE]] l1 l2 -> none_of s l2).
  { intros s l1 l2 H1 Hs G. eapply none_grows; [exact H1|exact G|]. intros m Hm [<-|[]]. apply Hs in Hm. cbn in Hm.
    repeat match goal with HH : _ \/ _ |- _ => destruct HH end; try contradiction; discriminate. }
  destruct Hx as [->| ->].
  - rewrite (imp_new _ _ _ _ _ _ _ _ false main_body); [|apply H; cbn; tauto|reflexivity].
    cbv zeta. cbn [app]. unfold main_body.
    match goal with |- context [exec _ _ _ 40 [D] false [] ?b ?ll] => assert (KM : exists fl2 l2, exec torch_line11 Inside inst 40 [D] false [] b ll = (ImportError, fl2, l2) /\ grows [[SE; SFE]] ll l2) end.
    { rewrite ex_third. destruct (inst "numpy"); [|eexists _, _; split; [reflexivity|apply grows_refl]].
      rewrite !ex_try, ex_third. destruct (inst "matplotlib"); [|eexists _, _; split; [reflexivity|apply grows_refl]].
      rewrite ex_try, ex_name_no by reflexivity. erewrite ex_abs by reflexivity.
      destruct (se_fails Inside inst [] HP 27 [SFE] ([D] :: l)) as (l2 & E2 & G2).
      { intros m Hm. rewrite mem_cons. rewrite (H m) by (cbn in Hm |- *; tauto). rewrite orb_false_r. cbn in Hm.
        repeat match goal with HH : _ \/ _ |- _ => destruct HH end; try contradiction; subst m; reflexivity. }
      rewrite E2. eexists _, _. split; [reflexivity|exact G2]. }
    destruct KM as (fl2 & l2 & -> & G2). eexists. split; [reflexivity|]. apply grows_remove in G2.
    eapply NG; eauto.
  - destruct (se_fails Inside inst [] HP 34 rest l) as (l2 & E2 & G2).
    { intros m Hm. apply H. cbn in Hm |- *. tauto. }
    rewrite E2. eexists. split; [reflexivity|]. eapply NG; eauto.
Qed.

(** ** C55 *)
(** whatever is installed, and however often and in whatever order one tries: importing the package, or any module of it, raises
    ImportError *)
Theorem C55_package_never_imports (steps : list ((string -> bool) * path)) :
  (forall inst m, In (inst, m) steps -> exists rest, m = D :: rest) ->
  session torch_line11 Repo steps [] = repeat ImportError (List.length steps).
Proof.
  assert (K : forall l, none_of broken_repo l -> (forall inst m, In (inst, m) steps -> exists rest, m = D :: rest) ->
    session torch_line11 Repo steps l = repeat ImportError (List.length steps)).
  { induction steps as [|[inst m] steps IH]; intros l Hl H; [reflexivity|]. destruct (H inst m (or_introl eq_refl)) as (rest & ->).
    destruct (repo_fails inst rest l Hl) as (l' & Q & Hl'). cbn [session]. rewrite Q. cbn [repeat List.length]. f_equal.
    apply IH; auto. intros i m Hm. apply (H i m). now right. }
  intro H. apply K; [|exact H]. intros m Hm. reflexivity.
Qed.
(** the same from inside the package directory, for the module with the two classes and for the estimators *)
Theorem C55_not_from_the_directory_either (steps : list ((string -> bool) * path)) :
  (forall inst m, In (inst, m) steps -> exists x rest, m = x :: rest /\ (x = D \/ x = SE)) ->
  session torch_line11 Inside steps [] = repeat ImportError (List.length steps).
Proof.
  assert (K : forall l, none_of broken_inside l -> (forall inst m, In (inst, m) steps -> exists x rest, m = x :: rest /\ (x = D \/ x = SE)) ->
    session torch_line11 Inside steps l = repeat ImportError (List.length steps)).
  { induction steps as [|[inst m] steps IH]; intros l Hl H; [reflexivity|]. destruct (H inst m (or_introl eq_refl)) as (x & rest & -> & Hx).
    destruct (inside_fails inst x rest l Hx Hl) as (l' & Q & Hl'). cbn [session]. rewrite Q. cbn [repeat List.length]. f_equal.
    apply IH; auto. intros i m Hm. apply (H i m). now right. }
  intro H. apply K; [|exact H]. intros m Hm. reflexivity.
Qed.

Transparent mem remove exec import_from.
(** *** the interpreter is not simply failing: parts that do not pass through the broken line import, and with the line written
    [from DeterministicParticleFlowControl.kernels.RBF_pytorch] the package imports exactly when everything it needs is there - torch included *)
Example C55_reweighting_imports : fst (import_module torch_line11 Inside (fun _ => true) ["reweighting"; "optimal_transport_reweighting"] []) = Fine /\
  fst (import_module torch_line11 Inside (fun _ => true) ["kernels"] []) = Fine /\
  fst (import_module torch_line11 Inside (fun m => negb (String.eqb m "pyemd")) ["reweighting"] []) = ImportError.
Proof. repeat split; reflexivity. Qed.
Definition fixed_line11 := FromAbs [D; "kernels"; "RBF_pytorch"].
Example C55_with_the_line_fixed : fst (import_module fixed_line11 Repo (fun _ => true) [D] []) = Fine /\
  fst (import_module fixed_line11 Repo (fun m => negb (String.eqb m "ot")) [D] []) = Fine /\
  Forall (fun x => fst (import_module fixed_line11 Repo (fun m => negb (String.eqb m x)) [D] []) = ImportError)
    ["numpy"; "matplotlib"; "scipy"; "numba"; "torch"; "pyemd"; "duecredit"].
Proof. split; [reflexivity|]. split; [reflexivity|]. repeat constructor. Qed.

(** with the line repaired, the package - its numpy half included - still needs torch and everything else that is imported
    unconditionally, whatever else is installed *)
Section Ext.
  Context (L : list string).
  Fixpoint named (st : stmt) : bool :=
    let In' x := existsb (String.eqb x) L in
    match st with
    | Third x => In' x | TryThird x _ => In' x | From1 _ => true | FromAbs (x :: _) => In' x | FromAbs [] => true
    | IfFlag _ b => forallb named b | IfName _ a b => forallb named a && forallb named b end.
  Context (line11 : stmt) (r : root) (HT : forallb (fun e => forallb named (snd (snd e))) (table line11) = true).
  Lemma find_named m pkg b : find line11 r m = Some (pkg, b) -> forallb named b = true.
  Proof.
    assert (K : forall p, file line11 p = Some (pkg, b) -> forallb named b = true).
    { intros p. unfold file. destruct (List.find _ _) as [e|] eqn:Q; [|discriminate]. cbn. intro E. injection E as E.
      apply find_some in Q. destruct Q as (Q & _). rewrite forallb_forall in HT. specialize (HT e Q). now rewrite E in HT. }
    unfold find. destruct r, m as [|x p]; try discriminate; try (destruct (String.eqb _ _); [|discriminate]); apply K.
  Qed.
  Context (i1 i2 : string -> bool) (HI : forall x, In x L -> i1 x = i2 x).
  Lemma HI' x : existsb (String.eqb x) L = true -> i1 x = i2 x.
  Proof. intro H. apply existsb_exists in H. destruct H as (y & Hy & E). apply String.eqb_eq in E. subst. auto. Qed.
  Lemma import_ext run1 run2 : (forall m pkg b l, forallb named b = true -> run1 m pkg b l = run2 m pkg b l) ->
    forall rest pre l, import_from line11 r run1 pre rest l = import_from line11 r run2 pre rest l.
  Proof.
    intro H. induction rest as [|x rest IH]; intros pre l; cbn [import_from]; [reflexivity|]. destruct (mem _ l); [apply IH|].
    destruct (find line11 r (pre ++ [x])%list) as [[pkg b]|] eqn:Q; [|reflexivity]. rewrite H by (eapply find_named; eauto).
    destruct (run2 _ _ _ _) as [[] l']; try reflexivity. apply IH.
  Qed.
  Lemma exec_ext n : forall m pkg fl b l, forallb named b = true -> exec line11 r i1 n m pkg fl b l = exec line11 r i2 n m pkg fl b l.
  Proof.
    induction n as [|n IH]; intros m pkg fl b l Hb; [reflexivity|]. cbn [exec]. destruct b as [|st b]; [reflexivity|].
    cbn [forallb] in Hb. apply andb_true_iff in Hb. destruct Hb as (Hs & Hb). cbv zeta.
    assert (R : forall pre p l0, import_from line11 r (fun m pkg b l => let '(o, _, l') := exec line11 r i1 n m pkg [] b l in (o, l')) pre p l0 =
                            import_from line11 r (fun m pkg b l => let '(o, _, l') := exec line11 r i2 n m pkg [] b l in (o, l')) pre p l0).
    { intros pre p l0. apply import_ext. intros m' pkg' b' l' Hb'. now rewrite IH. }
    assert (C : forall o fl1 l1, match o with Fine => exec line11 r i1 n m pkg fl1 b l1 | e => (e, fl1, l1) end =
                            match o with Fine => exec line11 r i2 n m pkg fl1 b l1 | e => (e, fl1, l1) end).
    { intros [] fl1 l1; auto. }
    destruct st; cbn [named] in Hs.
    - rewrite (HI' _ Hs). first [apply C | apply IH; assumption].
    - rewrite R. destruct (import_from _ _ _ _ _ _) as [o l1]. first [apply C | apply IH; assumption].
    - destruct p as [|x p]; [apply IH; assumption|]. destruct (find line11 r [x]) eqn:Q.
      + rewrite R. destruct (import_from _ _ _ _ _ _) as [o l1]. first [apply C | apply IH; assumption].
      + rewrite (HI' _ Hs). first [apply C | apply IH; assumption].
    - rewrite (HI' _ Hs). first [apply C | apply IH; assumption].
    - destruct (existsb _ fl); [|apply IH; assumption]. rewrite IH by auto. destruct (exec _ _ _ _ _ _ _ _ _) as [[o fl1] l1]. first [apply C | apply IH; assumption].
    - apply andb_true_iff in Hs. rewrite IH by (destruct (String.eqb _ _); tauto). destruct (exec _ _ _ _ _ _ _ _ _) as [[o fl1] l1]. first [apply C | apply IH; assumption].
  Qed.
  Lemma import_module_ext m l : import_module line11 r i1 m l = import_module line11 r i2 m l.
  Proof. unfold import_module. apply import_ext. intros m' pkg b l' Hb. now rewrite exec_ext. Qed.
End Ext.
Fixpoint pick (L : list string) (bs : list bool) (x : string) : bool :=
  match L, bs with y :: L', b :: bs' => if String.eqb x y then b else pick L' bs' x | _, _ => true end.
Lemma pick_map L (inst : string -> bool) x : In x L -> pick L (map inst L) x = inst x.
Proof.
  induction L as [|y L IH]; intro H; [destruct H|]. cbn. destruct (String.eqb x y) eqn:Q; [apply String.eqb_eq in Q; now subst|].
  destruct H as [H|H]; [subst; rewrite String.eqb_refl in Q; discriminate|auto].
Qed.
Fixpoint bools (n : nat) : list (list bool) := match n with O => [[]] | S n => (map (cons true) (bools n) ++ map (cons false) (bools n))%list end.
Lemma bools_all bs : In bs (bools (List.length bs)).
Proof. induction bs as [|b bs IH]; cbn; [auto|]. apply in_or_app. destruct b; [left|right]; apply in_map; exact IH. Qed.
Definition packages := ["numpy"; "matplotlib"; "scipy"; "numba"; "torch"; "pyemd"; "duecredit"; "ot"; SE; "reweighting"; D].
Definition same (a b : outcome) : bool := match a, b with Fine, Fine => true | ImportError, ImportError => true | _, _ => false end.
Lemma all_cases : forallb (fun bs => same (fst (import_module fixed_line11 Repo (pick packages bs) [D] []))
    (if forallb (pick packages bs) ["numpy"; "matplotlib"; "scipy"; "numba"; "torch"; "pyemd"; "duecredit"] then Fine else ImportError)) (bools 11) = true.
Proof. vm_compute. reflexivity. Qed.
Theorem C55_what_it_would_need (inst : string -> bool) : fst (import_module fixed_line11 Repo inst [D] []) =
  if forallb inst ["numpy"; "matplotlib"; "scipy"; "numba"; "torch"; "pyemd"; "duecredit"] then Fine else ImportError.
Proof.
  rewrite (import_module_ext packages fixed_line11 Repo eq_refl inst (pick packages (map inst packages))) by (intros x Hx; now rewrite pick_map).
  pose proof all_cases as H. rewrite forallb_forall in H. specialize (H (map inst packages) (bools_all (map inst packages))).
  replace (forallb inst _) with (forallb (pick packages (map inst packages)) ["numpy"; "matplotlib"; "scipy"; "numba"; "torch"; "pyemd"; "duecredit"]).
  - revert H. generalize (fst (import_module fixed_line11 Repo (pick packages (map inst packages)) [D] [])).
    intros o H. destruct (forallb _ _), o; cbn in H; congruence.
  - cbn [forallb]. now rewrite !pick_map by (cbn; tauto).
Qed.
Corollary C55_torch_is_required (inst : string -> bool) : inst "torch" = false -> fst (import_module fixed_line11 Repo inst [D] []) = ImportError.
Proof. intro H. rewrite C55_what_it_would_need. cbn [forallb]. rewrite H. now rewrite !andb_false_r. Qed.
