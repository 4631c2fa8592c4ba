(** An executable instance, used only to exhibit concrete runs that meet the hypotheses of the theorems:
    fixed-point numbers (integers counting millionths), a linear-congruential random generator, a Gauss-Jordan
    inverse and two transport plans (product, north-west corner). *)
From Coq Require Import String List ZArith Lia Bool.
From Verif Require Import Base.Num Base.Py Base.Arr Model.Ext Model.Score Model.DPFC.
Import ListNotations.
Local Open Scope Z_scope.

Definition one6 : Z := 1000000.
Definition fxmul (a b : Z) : Z := a * b / one6.
Definition fxdiv (a b : Z) : Z := if b =? 0 then 0 else a * one6 / b.
(** (1 + x/1024)^1024 *)
Definition fxexp (x : Z) : Z :=
  let y := one6 + x / 1024 in Nat.iter 10 (fun v => fxmul v v) y.

#[export] Instance FxOps : NumOps Z := {|
  nzero := 0; none1 := one6;
  nadd := Z.add; nsub := Z.sub; nmul := fxmul; ndiv := fxdiv; nopp := Z.opp;
  nsqrt := fun x => Z.sqrt (x * one6); nexp := fxexp;
  nsin := fun x => x; ncos := fun _ => one6; nabs := Z.abs;
  nltb := Z.ltb; nleb := Z.leb; neqb := Z.eqb; npmin := Z.min; npmax := Z.max;
  nsum := fold_right Z.add 0;
  nlit := fun p q => p * one6 / Zpos q;
  nceil := fun x => - ((- x) / one6);
  nbad := fun _ => false |}.

(** Gauss-Jordan elimination on the rows of (A | I); no pivoting failure handling needed for the examples *)
Definition rowop (c : Z) (r1 r2 : list Z) : list Z := map (fun p => fst p - fxmul c (snd p)) (combine r1 r2).
Definition gj_step (rows : list (list Z)) (j : nat) : list (list Z) :=
  let pr := nth j rows [] in
  let pv := nth j pr 0 in
  let pr' := map (fun v => fxdiv v pv) pr in
  map (fun ir => if Nat.eqb (fst ir) j then pr' else rowop (nth j (snd ir) 0) (snd ir) pr')
      (combine (seq 0 (List.length rows)) rows).
Definition gj_inv (A : mat Z) : option (nat -> nat -> Z) :=
  let n := mr A in
  let aug := map (fun i => row A i ++ map (fun j => if Nat.eqb i j then one6 else 0) (seq 0 n)) (seq 0 n) in
  let r := fold_left gj_step (seq 0 n) aug in
  Some (fun i j => nth (n + j) (nth i r []) 0).

Definition lcg (s : Z) : Z := (s * 1103515245 + 12345) mod 2147483648.
Definition draw01 (s : Z) (i : nat) : Z := (Nat.iter (Datatypes.S i) lcg s / 1000) mod one6.

(** north-west corner plan: overlap of the i-th interval of a's cumulative sums with the j-th of b's *)
Definition cum (a : list Z) (i : nat) : Z := fold_right Z.add 0 (firstn i a).
Definition nw_plan (a b : list Z) (i j : nat) : Z :=
  Z.max 0 (Z.min (cum a (Datatypes.S i)) (cum b (Datatypes.S j)) - Z.max (cum a i) (cum b j)).

Definition ToyExt : Ext Z Z := {|
  x_normal := fun s sc r c => (fun i j => fxmul sc (2 * draw01 s (i * c + j) - one6), lcg (s + 1));
  x_uniform := fun s lo hi m => (Ok (fun i => lo + fxmul (hi - lo) (draw01 s i)), lcg (s + 2));
  x_tuniform := fun s lo hi m => (fun i d => nth d lo 0 + fxmul (nth d hi 0 - nth d lo 0) (draw01 s (i * List.length lo + d)), lcg (s + 3));
  x_inv := gj_inv;
  x_emd := fun a b c i j => fxmul (nth i a 0) (nth j b 0);
  x_otemd := fun a b c i j => nw_plan a b i j |}.

(** drift f(x,t) = -x (two arguments) or f(x) = -x (one argument), constraint U(x,t) = x_0 *)
Definition f2 : callable Z := {| call1 := fun _ => Err TypeError; call2 := fun x _ => Ok (mopp x) |}.
Definition f1 : callable Z := {| call1 := fun x => Ok (mopp x); call2 := fun _ _ => Err TypeError |}.
Definition f12 : callable Z := {| call1 := fun x => Ok (mopp x); call2 := fun x _ => Ok (mopp x) |}.
Definition U2 : callable Z := {| call1 := fun _ => Err TypeError; call2 := fun x _ => Ok (vec (row x 0)) |}.
Definition U1 : callable Z := {| call1 := fun x => Ok (vec (row x 0)); call2 := fun _ _ => Err TypeError |}.

(** t1 = 0, t2 = 0.004 (5 grid points), from (0,0) to (0.0005, 0.0009), 4 particles, 3 inducing points, g = 1 *)
Definition toy (t2 : Z) (y1 y2 : list Z) (rw brown det : bool) (f : callable Z) (U : callable Z) : params Z := {|
  p_t1 := 0; p_t2 := t2; p_y1 := y1; p_y2 := y2;
  p_f := f; p_g := mk 1 1 (fun _ _ => one6); p_N := 4; p_M := 3;
  p_reweight := rw; p_U := Some U; p_dens_est := "hermit1"; p_reject := true; p_kern := "RBF";
  p_f_true := Some f; p_brown := brown; p_det := det |}.
Definition P0 := [0; 0].
Definition P1 := [500; 900].

Definition toy_det := toy 4000 P0 P1 false false true f2 U2.
Definition toy_rw := toy 4000 P0 P1 true false true f2 U2.
Definition toy_bridge := toy 4000 P0 P1 true true true f2 U2.
Definition toy_stoch := toy 4000 P0 P1 false false false f12 U1.

Definition run (p : params Z) : option (obj Z) :=
  match construct ToyExt p 7 with (Ok o, _) => Some o | _ => None end.
Definition is_ok {A} (r : res A * Z) : bool := match r with (Ok _, _) => true | _ => false end.
