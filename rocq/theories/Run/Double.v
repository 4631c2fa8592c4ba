(** IEEE binary64 numbers (Flocq) as a number system for the model: correctly rounded +, -, *, /, sqrt (round to nearest even), with
    infinities and a NaN.  exp, sin, cos and the order of summation are whatever numpy's are: parameters. *)
From Coq Require Import List ZArith Reals Bool Lia Lra.
From Flocq Require Import Core BinarySingleNaN Relative.
From Verif Require Import Base.Num.
Local Open Scope R_scope.

#[global] Instance Hprec : Prec_gt_0 53. Proof. reflexivity. Qed.
#[global] Instance Hemax : Prec_lt_emax 53 1024. Proof. reflexivity. Qed.
Notation double := (binary_float 53 1024).
Definition dZ (n : Z) : double := binary_normalize 53 1024 Hprec Hemax mode_NE n 0 false.

Section Ops.
  Context (fexp fsin fcos : double -> double) (fsum : list double -> double).
  (** decimal literals p/q with p, q < 2^53 are the doubles nearest to p/q; np.ceil is exact on doubles; np.minimum/np.maximum return NaN if
      an argument is NaN *)
  Definition DoubleOps : NumOps double := {|
    nzero := dZ 0; none1 := dZ 1;
    nadd := Bplus mode_NE; nsub := Bminus mode_NE; nmul := Bmult mode_NE; ndiv := Bdiv mode_NE; nopp := Bopp;
    nsqrt := Bsqrt mode_NE; nexp := fexp; nsin := fsin; ncos := fcos; nabs := Babs;
    nltb := Bltb; nleb := Bleb; neqb := Beqb;
    npmin := fun x y => if is_nan x then x else if is_nan y then y else if Bltb y x then y else x;
    npmax := fun x y => if is_nan x then x else if is_nan y then y else if Bltb x y then y else x;
    nsum := fsum;
    nlit := fun p q => Bdiv mode_NE (dZ p) (dZ (Zpos q));
    nceil := fun x => Zceil (B2R x);
    nbad := fun x => negb (is_finite x) |}.
End Ops.

(** x is a finite double whose value differs from v by at most e *)
Definition near (x : double) (v e : R) : Prop := is_finite x = true /\ Rabs (B2R x - v) <= e.

Notation rnd := (round radix2 (SpecFloat.fexp 53 1024) (round_mode mode_NE)).
(** 2^-53, and 2^-1075 bounded by something lra can handle *)
Definition u : R := / 9007199254740992.
Definition eta : R := / 1000000000000000000000000000000.
Lemma bpow_u : / 2 * bpow radix2 (- 53 + 1) = u.
Proof. unfold u. cbn. lra. Qed.
Lemma bpow_eta : / 2 * bpow radix2 (-1074) <= eta.
Proof.
  apply Rle_trans with (bpow radix2 (-100)).
  - apply Rle_trans with (bpow radix2 (-1074)); [pose proof (bpow_gt_0 radix2 (-1074)); lra|]. apply bpow_le. lia.
  - unfold eta. cbn. lra.
Qed.
Lemma rnd_error x : Rabs (rnd x - x) <= u * Rabs x + eta.
Proof.
  destruct (error_N_FLT radix2 (-1074) 53 ltac:(lia) (fun n => negb (Z.even n)) x) as (e & t & He & Ht & _ & Q).
  change (rnd x) with (round radix2 (FLT_exp (-1074) 53) (Znearest (fun n => negb (Z.even n))) x). rewrite Q.
  replace (x * (1 + e) + t - x) with (e * x + t) by ring. eapply Rle_trans; [apply Rabs_triang|]. rewrite Rabs_mult, <- bpow_u.
  apply Rplus_le_compat; [|pose proof bpow_eta; lra]. apply Rmult_le_compat_r; [apply Rabs_pos|exact He].
Qed.
Lemma rnd_small x : Rabs x <= bpow radix2 1000 -> Rlt_bool (Rabs (rnd x)) (bpow radix2 1024) = true.
Proof.
  intro H. apply Rlt_bool_true. apply Rle_lt_trans with (bpow radix2 1000); [|apply bpow_lt; lia].
  apply abs_round_le_generic; [apply fexp_correct; reflexivity|apply valid_rnd_round_mode| |exact H]. apply generic_format_bpow. cbn. lia.
Qed.
Lemma big x : Rabs x <= 1000000000000 -> Rabs x <= bpow radix2 1000.
Proof. intro H. eapply Rle_trans; [exact H|]. apply Rle_trans with (bpow radix2 40); [cbn; lra|]. apply bpow_le. lia. Qed.

Lemma plus_near x y : is_finite x = true -> is_finite y = true -> Rabs (B2R x + B2R y) <= 1000000000000 ->
  near (Bplus mode_NE x y) (B2R x + B2R y) (u * Rabs (B2R x + B2R y) + eta).
Proof.
  intros Fx Fy H. pose proof (Bplus_correct 53 1024 _ _ mode_NE x y Fx Fy) as C. rewrite rnd_small in C by now apply big.
  destruct C as (C1 & C2 & _). split; [exact C2|]. rewrite C1. apply rnd_error.
Qed.
Lemma minus_near x y : is_finite x = true -> is_finite y = true -> Rabs (B2R x - B2R y) <= 1000000000000 ->
  near (Bminus mode_NE x y) (B2R x - B2R y) (u * Rabs (B2R x - B2R y) + eta).
Proof.
  intros Fx Fy H. pose proof (Bminus_correct 53 1024 _ _ mode_NE x y Fx Fy) as C. rewrite rnd_small in C by now apply big.
  destruct C as (C1 & C2 & _). split; [exact C2|]. rewrite C1. apply rnd_error.
Qed.
Lemma mult_near x y : is_finite x = true -> is_finite y = true -> Rabs (B2R x * B2R y) <= 1000000000000 ->
  near (Bmult mode_NE x y) (B2R x * B2R y) (u * Rabs (B2R x * B2R y) + eta).
Proof.
  intros Fx Fy H. pose proof (Bmult_correct 53 1024 _ _ mode_NE x y) as C. rewrite rnd_small in C by now apply big.
  destruct C as (C1 & C2 & _). split; [now rewrite C2, Fx, Fy|]. rewrite C1. apply rnd_error.
Qed.
Lemma div_near x y : is_finite x = true -> B2R y <> 0 -> Rabs (B2R x / B2R y) <= 1000000000000 ->
  near (Bdiv mode_NE x y) (B2R x / B2R y) (u * Rabs (B2R x / B2R y) + eta).
Proof.
  intros Fx Fy H. pose proof (Bdiv_correct 53 1024 _ _ mode_NE x y Fy) as C. rewrite rnd_small in C by now apply big.
  destruct C as (C1 & C2 & _). split; [now rewrite C2, Fx|]. rewrite C1. apply rnd_error.
Qed.
Lemma dZ_exact n : (Z.abs n < 9007199254740992)%Z -> is_finite (dZ n) = true /\ B2R (dZ n) = IZR n.
Proof.
  intro H. unfold dZ. pose proof (binary_normalize_correct 53 1024 Hprec Hemax mode_NE n 0 false) as C. cbv zeta in C.
  assert (E : F2R (Float radix2 n 0) = IZR n) by (unfold F2R; cbn; ring). rewrite E in C.
  assert (G : rnd (IZR n) = IZR n).
  { apply round_generic; [apply valid_rnd_round_mode|]. apply (generic_format_FLT radix2 (-1074) 53). exists (Float radix2 n 0); [now rewrite E|cbn; exact H|cbn; lia]. }
  rewrite G in C. rewrite Rlt_bool_true in C; [now destruct C as (C1 & C2 & _)|].
  rewrite <- abs_IZR. apply Rlt_trans with (IZR 9007199254740992); [now apply IZR_lt|]. apply Rle_lt_trans with (bpow radix2 60); [cbn; lra|apply bpow_lt; lia].
Qed.
