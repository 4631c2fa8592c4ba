(** The limit-cycle system of the examples, in the plane: dX = f(X) dt + sigma dW with
    f(x,y) = (-y + x(1 - x^2 - y^2), x + y(1 - x^2 - y^2)). *)
From Coq Require Import List ZArith Reals.
From Verif Require Import Base.Num Base.Py Base.Arr Model.Ext.
Import ListNotations.
Local Open Scope R_scope.

Definition fx (x y : R) : R := - y + x * (1 - x ^ 2 - y ^ 2).
Definition fy (x y : R) : R := x + y * (1 - x ^ 2 - y ^ 2).
Definition norm2 (v : list R) : R := sqrt (nth 0 v 0 ^ 2 + nth 1 v 0 ^ 2).

(** an Euler-Maruyama path from (0,-1) with step 1/1000 and noise amplitude 1/10; the displacements are one draw of two numbers of
    standard deviation sqrt(1/1000) per step, consumed in order from the generator *)
Definition noise_of {S} (E : Ext R S) (s : S) : list R :=
  let h := fst (x_normal E s (sqrt (1/1000)) 1 2) in [1/10 * h 0%nat 0%nat; 1/10 * h 0%nat 1%nat].
Definition after_noise {S} (E : Ext R S) (s : S) : S := snd (x_normal E s (sqrt (1/1000)) 1 2).
Definition em_next (p w : list R) : list R :=
  let x := nth 0 p 0 in let y := nth 1 p 0 in
  [x + 1/1000 * fx x y + nth 0 w 0; y + 1/1000 * fy x y + nth 1 w 0].
Fixpoint em_state {S} (E : Ext R S) (s : S) (t : nat) : S :=
  match t with 0%nat => s | Datatypes.S t' => after_noise E (em_state E s t') end.
Definition em_path {S} (E : Ext R S) (s : S) (F : list (list R)) : Prop :=
  nth 0 F [] = [0; -1] /\
  forall t, (t + 1 < List.length F)%nat -> nth (t + 1) F [] = em_next (nth t F []) (noise_of E (em_state E s t)).

(** ** partial derivatives, and the stationary Fokker-Planck equation  0 = - div(f p) + sigma^2/2 * laplace p *)
Definition pdx (u : R -> R -> R) (x y d : R) : Prop := derivable_pt_lim (fun a => u a y) x d.
Definition pdy (u : R -> R -> R) (x y d : R) : Prop := derivable_pt_lim (fun b => u x b) y d.
Definition stationary (sigma : R) (p : R -> R -> R) : Prop :=
  exists p1 p2 p11 p22 q1 q2 : R -> R -> R,
    (forall x y, pdx p x y (p1 x y) /\ pdy p x y (p2 x y) /\ pdx p1 x y (p11 x y) /\ pdy p2 x y (p22 x y)) /\
    (forall x y, pdx (fun a b => fx a b * p a b) x y (q1 x y) /\ pdy (fun a b => fy a b * p a b) x y (q2 x y)) /\
    (forall x y, - (q1 x y + q2 x y) + sigma ^ 2 / 2 * (p11 x y + p22 x y) = 0).
(** the (unnormalised) invariant density: a ridge over the unit circle *)
Definition ridge (sigma : R) (x y : R) : R := exp (- (x ^ 2 + y ^ 2 - 1) ^ 2 / (2 * sigma ^ 2)).
