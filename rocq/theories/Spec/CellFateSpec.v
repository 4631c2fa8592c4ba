(** What the class of the cell-differentiation figure is supposed to produce, in the plane.  Uses the one-step relations of FlowSpec only. *)
From Coq Require Import String List ZArith Reals Lia Bool Sorted.
From Verif Require Import Base.Num Base.Py Base.Arr Model.Ext Model.Score Model.DPFC Spec.FlowSpec.
Import ListNotations.

Section CellFateSpec.
  Context {S : Type} (E : Ext R S).

  (** two coordinates, Gaussian kernel, one noise amplitude, no path constraint: the setting of the script *)
  Definition planar (p : params R) : Prop :=
    List.length (p_y1 p) = 2%nat /\ List.length (p_y2 p) = 2%nat /\ p_kern p = "RBF"%string /\ p_reweight p = false /\ mr (p_g p) = 1%nat /\ mc (p_g p) = 1%nat.
  Definition amplitude (p : params R) : R := get (p_g p) 0 0.

  (** forward particles: start at y1; one noisy step, then the deterministic flow *)
  Definition fate_forward (p : params R) (grid : list R) (Z : arr3 R) (s s' : S) : Prop :=
    let k := List.length grid in
    has_shape Z 2 (p_N p) k /\ all_at Z 0 (p_y1 p) /\
    exists sg : nat -> S, sg 0%nat = s /\ sg (k - 1)%nat = s' /\
      forall i, (1 <= i < k)%nat ->
        plain_step E (1/1000)%R "RBF" (p_M p) (p_g p) (call2 (p_f p)) i (nth i grid 0%R) (slice Z (i-1)) (slice Z i) (sg (i-1)%nat) (sg i).

  (** backward particles: start at y2, end at y1; the step from index j+1 to index j reads the forward flow at index j *)
  Definition fate_backward (p : params R) (grid : list R) (Z B : arr3 R) (s s' : S) : Prop :=
    let k := List.length grid in
    has_shape B 2 (p_N p) k /\ all_at B 0 (p_y1 p) /\ all_at B (k - 1) (p_y2 p) /\
    exists sg : nat -> S, sg (k - 1)%nat = s /\ sg 1%nat = s' /\
      forall j, (1 <= j)%nat -> (j + 1 < k)%nat ->
        back_step E (j =? k - 2)%nat (1/1000)%R "RBF" (p_M p) (p_g p) (call2 (p_f p)) (nth (j+1) grid 0%R)
          (slice Z j) (slice B (j+1)) (slice B j) (sg (j+1)%nat) (sg j).

  (** B' consists of the trajectories of B with the given numbers, in that order *)
  Definition trajectories (B : arr3 R) (kept : list nat) (B' : arr3 R) : Prop :=
    has_shape B' (a_d B) (List.length kept) (a_k B) /\
    forall d n t, (d < a_d B)%nat -> (n < List.length kept)%nat -> (t < a_k B)%nat -> get3 B' d n t = get3 B d (nth n kept 0%nat) t.

  (** the trajectories whose first coordinate at the second grid point lies strictly within four noise widths of the point c *)
  Definition within_cone (B : arr3 R) (c width : R) (kept : list nat) : Prop :=
    StronglySorted lt kept /\ forall n, In n kept <-> (n < a_n B)%nat /\ (Rabs (get3 B 0 n 1 - c) < width)%R.

  (** one step, of length 1/1000, of the controlled path F, the uncontrolled path Fn and the recorded controls u, from grid index i-1 to i:
      the control is that of [control], taken at the position of F; the noise of F is drawn first *)
  Definition fate_step (drift : list R -> res (list R)) (g : R) (control : nat -> mat R -> S -> mat R -> S -> Prop)
    (F Fn u : list (list R)) (i : nat) (s s' : S) : Prop :=
    let x := nth (i - 1) F [] in let y := nth (i - 1) Fn [] in
    exists U s1 W s2 W' fx fy, control i (mk 2 1 (fun d _ => nth d x 0%R)) s U s1 /\
      x_normal E s1 (sqrt (1/1000)) 1 2 = (W, s2) /\ x_normal E s2 (sqrt (1/1000)) 1 2 = (W', s') /\
      drift x = Ok fx /\ drift y = Ok fy /\
      (forall d, (d < 2)%nat -> nth d (nth i F []) 0%R = (nth d x 0 + 1/1000 * nth d fx 0 + 1/1000 * g ^ 2 * get U d 0 + g * W 0%nat d)%R) /\
      (forall d, (d < 2)%nat -> nth d (nth i Fn []) 0%R = (nth d y 0 + 1/1000 * nth d fy 0 + g * W' 0%nat d)%R) /\
      (forall d, (d < 2)%nat -> nth d (nth i u []) 0%R = get U d 0).
  Definition fate_paths (drift : list R -> res (list R)) (g : R) (control : nat -> mat R -> S -> mat R -> S -> Prop) (y1 : list R)
    (k : nat) (F Fn u : list (list R)) (s s' : S) : Prop :=
    List.length F = k /\ List.length Fn = k /\ List.length u = k /\ nth 0 F [] = y1 /\ nth 0 Fn [] = y1 /\
    exists sg : nat -> S, sg 0%nat = s /\ sg (k - 1)%nat = s' /\ forall i, (1 <= i < k)%nat -> fate_step drift g control F Fn u i (sg (i - 1)%nat) (sg i).
End CellFateSpec.
