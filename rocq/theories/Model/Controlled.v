(** The controlled simulation the repository documents: Bridge_2D_on_Limit_Cycle.ipynb, the code cell after "Set the controls
    for the heart of the star" (dim = 2, reps = 30 there; any dim and reps here).

      for ti, tt in enumerate(bridg2d.timegrid[:]):
          if ti == 0:
              Fcont[:,ti] = y1.reshape(dim, -1);  Fnon[:,ti] = y1.reshape(dim, -1)
          else:
              uu = bridg2d.calculate_u(np.atleast_2d(Fcont[:, ti-1]).T, ti)
              used_u[:, ti] = uu
              Fcont[:, ti] = (Fcont[:, ti-1]+ dt* f(Fcont[:, ti-1])+dt*g**2 *uu+(g)*np.random.normal(loc=0.0, scale=np.sqrt(dt), size=(dim, reps)))
              Fnon[:, ti]  = (Fnon[:, ti-1]+ dt* f(Fnon[:, ti-1])+(g)*np.random.normal(loc=0.0, scale=np.sqrt(dt), size=(dim, reps)))

    The arrays of shape (dim, k, reps) are stored here as dim x reps x k, one slice [:, ti] per grid index.
    Simplification: y1 is a 1-d array with dim entries (the notebook's y1 is F[:, 100]); g is a number. *)
From Coq Require Import String List ZArith Lia Bool.
From Verif Require Import Base.Num Base.Py Base.Arr Model.Ext Model.DPFC.
Import ListNotations.

Section Controlled.
  Context {T S : Type} {O : NumOps T} (E : Ext T S).

  (** Fcont, used_u, Fnon *)
  Record ctl := { ct_F : arr3 T; ct_u : arr3 T; ct_n : arr3 T }.

  (** x + dt*f(x)  (both right-hand sides) *)
  Definition ctl_drift (f : callable T) (x : mat T) : res (mat T) :=
    let! fx := call1 f x in bc2 nadd x (smul dt fx).

  (** the loop body *)
  Definition ctl_body (o : obj T) (f : callable T) (g : T) (y1 : list T) (reps : nat) (c : ctl) (it : nat * T) : M S ctl :=
    let (ti, tt) := it in
    let dim := List.length y1 in
    if ti =? 0 then
      lift (let start := mk dim 1 (fun d _ => nth d y1 nzero) in
            let! F := setsl (ct_F c) 0 start in
            let! Fn := setsl (ct_n c) 0 start in
            Ok {| ct_F := F; ct_u := ct_u c; ct_n := Fn |})
    else
      let* x := lift (getsl (ct_F c) (Z.of_nat ti - 1)) in
      let* uu := calculate_u E o (mT x) (Z.of_nat ti) in
      let* us := lift (setsl (ct_u c) (Z.of_nat ti) uu) in
      let* a := lift (ctl_drift f x) in
      let* b := lift (bc2 nadd a (smul (nmul dt (nsq g)) uu)) in
      let* noise := normal E (nsqrt dt) dim reps in
      let* F := lift (let! y := bc2 nadd b (smul g noise) in setsl (ct_F c) (Z.of_nat ti) y) in
      let* x' := lift (getsl (ct_n c) (Z.of_nat ti - 1)) in
      let* a' := lift (ctl_drift f x') in
      let* noise' := normal E (nsqrt dt) dim reps in
      let* Fn := lift (let! y := bc2 nadd a' (smul g noise') in setsl (ct_n c) (Z.of_nat ti) y) in
      ret {| ct_F := F; ct_u := us; ct_n := Fn |}.

  (** the loop over the grid points [grid], with state arrays of kF and a control array of bridg2d.timegrid.size columns *)
  Definition controlled_loop (grid : list T) (kF : nat) (o : obj T) (f : callable T) (g : T) (y1 : list T) (reps : nat) : M S ctl :=
    let z := zeros3 (List.length y1) reps kF in
    mfold (ctl_body o f g y1 reps) (enumerate grid)
      {| ct_F := z; ct_u := zeros3 (List.length y1) reps (List.length (o_grid o)); ct_n := z |}.

  (** the cell: np.zeros for the three arrays, then the loop over bridg2d.timegrid *)
  Definition controlled_simulation (o : obj T) := controlled_loop (o_grid o) (List.length (o_grid o)) o.

  (** the script Bridge_2D_on_Limit_Cycle.py, lines 146-172 of notebooks/Stochastic_bridge_on_Limit_Cycle_2D/: the same loop, but over
      bridg2d.timegrid[:-1] and with state arrays of timegrid.size-1 columns (used_u keeps timegrid.size columns) *)
  Definition controlled_simulation_script (o : obj T) := controlled_loop (init (o_grid o)) (List.length (o_grid o) - 1) o.
End Controlled.
Arguments ctl : clear implicits.
