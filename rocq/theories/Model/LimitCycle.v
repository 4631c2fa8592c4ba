(** The limit-cycle examples: DeterministicParticleFlowControl/script_1.py (lines 28-68) and
    notebooks/Stochastic_bridge_on_Limit_Cycle_2D/Bridge_2D_on_Limit_Cycle.py (lines 33-85; the two notebooks
    Bridge_2D_on_Limit_Cycle.ipynb run the same statements).
    Not modelled: the plots and the print statements, and that the package cannot be imported at this commit (C55): [DPFC] here is the
    class itself.
    Simplifications: dt = 0.001 is the dt of Model/DPFC.v; a 1-d state is a list, the array F (2 x size) the list of its columns; -0. is 0. *)
From Coq Require Import String List ZArith Lia Bool.
From Verif Require Import Base.Num Base.Py Base.Arr Model.Ext Model.DPFC.
Import ListNotations.

Section LimitCycle.
  Context {T S : Type} {O : NumOps T} (E : Ext T S).

  (** f of one state (a, b): x0 = -x[1] + x[0]*(1-x[0]**2 -x[1]**2), x1 = x[0] + x[1]*(1-x[0]**2 -x[1]**2)   (script_1.py 28-31; .py 33-36) *)
  Definition lc0 (a b : T) : T := nadd (nopp b) (nmul a (nsub (nsub none1 (nsq a)) (nsq b))).
  Definition lc1 (a b : T) : T := nadd a (nmul b (nsub (nsub none1 (nsq a)) (nsq b))).
  (** called with a 1-d array *)
  Definition lc_point (x : list T) : res (list T) :=
    let! a := pyget x 0 in let! b := pyget x 1 in Ok [lc0 a b; lc1 a b].
  (** called with a 2-d array: the subscripts x[0], x[1] are rows *)
  Definition lc_f (x : mat T) : res (mat T) :=
    if 2 <=? mr x then Ok (mk 2 (mc x) (fun i j => if i =? 0 then lc0 (get x 0 j) (get x 1 j) else lc1 (get x 0 j) (get x 1 j)))
    else Err IndexError.
  (** f(x, t=0) as the class receives it; with one argument the stochastic mode passes it a 1-d array (one row, Model/DPFC.v) *)
  Definition lc_callable : callable T := {|
    call1 := fun x => if mr x =? 1 then let! y := lc_point (row x 0) in Ok (vec y) else lc_f x;
    call2 := fun x _ => lc_f x |}.

  (** glnfss(x, sigma): - x[i]*(x[0]**2 + x[1]**2 - 1)/(0.5*sigma**2)   (script_1.py 33-36) *)
  Definition glnfss (x : list T) (sigma : T) : res (list T) :=
    let! a := pyget x 0 in let! b := pyget x 1 in
    let w := nsub (nadd (nsq a) (nsq b)) none1 in
    Ok [ndiv (nmul (nopp a) w) (nmul nhalf (nsq sigma)); ndiv (nmul (nopp b) w) (nmul nhalf (nsq sigma))].

  (** g = 0.1 *)
  Definition lc_g : T := nlit 1 10.

  (** F[:, ti] = v *)
  Definition setcolumn (F : list (list T)) (t : Z) (v : list T) : res (list (list T)) :=
    match pyidx (List.length F) t with Some j => Ok (upd F j v) | None => Err IndexError end.

  (** the loop that simulates the uncontrolled system (script_1.py 51-55; .py 54-59) *)
  Definition lc_sim_body (F : list (list T)) (it : nat * T) : M S (list (list T)) :=
    let (ti, _) := it in
    if ti =? 0 then lift (setcolumn F 0 [nzero; nopp none1])
    else
      let* x := lift (pyget F (Z.of_nat ti - 1)) in
      let* fx := lift (lc_point x) in
      let* noise := normal E (nsqrt dt) 1 2 in
      lift (setcolumn F (Z.of_nat ti) (map (fun i => nadd (nadd (nth i x nzero) (nmul dt (nth i fx nzero))) (nmul lc_g (get noise 0 i))) (seq 0 2))).
  Definition lc_simulate (timegridall : list T) : M S (list (list T)) :=
    mfold lc_sim_body (enumerate timegridall) (repeat [nzero; nzero] (List.length timegridall)).

  (** the whole script: T the length of the simulation, it the index of the initial time, iy the index of the initial state, steps the
      number of steps of the bridge (script_1.py: 500, 10, 100, 2000; .py and notebooks: 500, 100, 100, 4000), N particles, M inducing points
      (200 and 40 in both).  Result: F and the DPFC object. *)
  Definition lc_problem (t1 t2 : T) (y1 y2 : list T) (N M : nat) : params T := {|
    p_t1 := t1; p_t2 := t2; p_y1 := y1; p_y2 := y2; p_f := lc_callable; p_g := mk 1 1 (fun _ _ => lc_g); p_N := N; p_M := M;
    p_reweight := false; p_U := None; p_dens_est := "nonparametric"; p_reject := true; p_kern := "RBF"; p_f_true := None;
    p_brown := false; p_det := true |}.
  Definition lc_script (Tend : T) (it iy steps N M : nat) : Py.M S (list (list T) * obj T) :=
    let tg := np_arange nzero Tend dt in
    let* F := lc_simulate tg in
    let* t1 := lift (pyget tg (Z.of_nat it)) in
    let* t2 := lift (pyget tg (Z.of_nat (it + steps))) in
    let* y1 := lift (pyget F (Z.of_nat iy)) in
    let* y2 := lift (pyget F (Z.of_nat (iy + steps))) in
    let* o := construct E (lc_problem t1 t2 y1 y2 N M) in
    ret (F, o).
End LimitCycle.
