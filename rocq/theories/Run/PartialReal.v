(** Real arithmetic with undefined results: [None] is the result of a division by zero, of the root of a negative number, and of
    every operation on such a result (numpy: inf or nan).  Comparisons with it are False, as for nan. *)
From Coq Require Import List ZArith Reals Lia Lra.
From Verif Require Import Base.Num Base.Py Base.Arr Lib.ArrLemmas Lib.RBase.
Import ListNotations.
Local Open Scope R_scope.

Definition lift1 (f : R -> R) (a : option R) : option R := match a with Some x => Some (f x) | None => None end.
Definition lift2 (f : R -> R -> R) (a b : option R) : option R := match a, b with Some x, Some y => Some (f x y) | _, _ => None end.
Definition cmp2 (f : R -> R -> bool) (a b : option R) : bool := match a, b with Some x, Some y => f x y | _, _ => false end.
#[export] Instance POps : NumOps (option R) := {|
  nzero := Some 0; none1 := Some 1;
  nadd := lift2 Rplus; nsub := lift2 Rminus; nmul := lift2 Rmult;
  ndiv := fun a b => match b with Some y => if Req_EM_T y 0 then None else lift1 (fun x => x / y) a | None => None end;
  nopp := lift1 Ropp;
  nsqrt := fun a => match a with Some x => if Rlt_dec x 0 then None else Some (sqrt x) | None => None end;
  nexp := lift1 exp; nsin := lift1 sin; ncos := lift1 cos; nabs := lift1 Rabs;
  nltb := cmp2 (fun x y => if Rlt_dec x y then true else false);
  nleb := cmp2 (fun x y => if Rle_dec x y then true else false);
  neqb := cmp2 (fun x y => if Req_EM_T x y then true else false);
  npmin := lift2 Rmin; npmax := lift2 Rmax;
  nsum := fold_right (lift2 Rplus) (Some 0);
  nlit := fun p q => Some (IZR p / IZR (Zpos q));
  nceil := fun a => match a with Some x => (1 - up (- x))%Z | None => 0%Z end;
  nbad := fun a => match a with Some _ => false | None => true end |}.

Lemma psum_map {A} (f : A -> option R) (h : A -> R) l : (forall a, In a l -> f a = Some (h a)) ->
  fold_right (lift2 Rplus) (Some 0) (map f l) = Some (fold_right Rplus 0 (map h l)).
Proof.
  induction l as [|a l IH]; intros H; [reflexivity|]. cbn [map fold_right]. rewrite IH by (intros; apply H; now right).
  rewrite H by now left. reflexivity.
Qed.
Lemma psum_const l v : (forall x, In x l -> x = Some v) -> fold_right (lift2 Rplus) (Some 0) l = Some (INR (List.length l) * v).
Proof.
  induction l as [|a l IH]; intros H. { cbn. f_equal. lra. } cbn [fold_right List.length]. rewrite IH by (intros; apply H; now right).
  rewrite (H a) by now left. cbn [lift2]. f_equal. rewrite S_INR. lra.
Qed.
Lemma pofnat n : nofnat (T := option R) n = Some (INR n).
Proof. unfold nofnat. cbn. f_equal. rewrite INR_IZR_INZ. field. Qed.
Lemma pmean_const l v : l <> [] -> (forall x, In x l -> x = Some v) -> nmean l = Some v.
Proof.
  intros Hl H. unfold nmean. rewrite pofnat. cbn [nsum POps ndiv]. rewrite (psum_const l v H).
  destruct l as [|a l]; [congruence|]. assert (INR (List.length (a :: l)) <> 0) by (apply not_0_INR; cbn; lia).
  destruct (Req_EM_T (INR (List.length (a :: l))) 0) as [e|]; [contradiction|]. cbn [lift1]. f_equal. field. auto.
Qed.
Lemma pstd_const l v : l <> [] -> (forall x, In x l -> x = Some v) -> nstd l = Some 0.
Proof.
  intros Hl H. unfold nstd, ssd. rewrite (pmean_const l v Hl H), pofnat.
  cbn [nsum POps ndiv nsqrt]. rewrite (psum_map _ (fun _ => 0)).
  2:{ intros a Ha. rewrite (H a Ha). cbn. f_equal. lra. }
  replace (fold_right Rplus 0 (map (fun _ : option R => 0) l)) with 0 by (clear; induction l; cbn; lra).
  destruct l as [|a l]; [congruence|]. assert (INR (List.length (a :: l)) <> 0) by (apply not_0_INR; cbn; lia).
  destruct (Req_EM_T (INR (List.length (a :: l))) 0) as [e|]; [contradiction|]. cbn [lift1]. unfold Rdiv. rewrite Rmult_0_l.
  destruct (Rlt_dec 0 0); [lra|]. now rewrite sqrt_0.
Qed.
Lemma psub_none b : nsub (T := option R) None b = None. Proof. reflexivity. Qed.
Lemma psub_none_r a : nsub (T := option R) a None = None. Proof. now destruct a. Qed.
Lemma padd_none b : nadd (T := option R) None b = None. Proof. reflexivity. Qed.
Lemma padd_none_r a : nadd (T := option R) a None = None. Proof. now destruct a. Qed.
Lemma pmul_none_r a : nmul (T := option R) a None = None. Proof. now destruct a. Qed.
Lemma pdiv_zero a : ndiv (T := option R) a (Some 0) = None.
Proof. cbn. destruct (Req_EM_T 0 0); [reflexivity|lra]. Qed.
