(** What a controlled simulation is supposed to be. *)
From Coq Require Import String List ZArith Lia Bool.
From Verif Require Import Base.Num Base.Py Base.Arr Model.Ext Model.DPFC Spec.FlowSpec.
Import ListNotations.

Section ControlledSpec.
  Context {T S : Type} {O : NumOps T} (E : Ext T S).

  (** a drift of one argument that accepts every dim x reps array and returns one of the same shape *)
  Definition field1 (dim reps : nat) (f : callable T) : Prop :=
    forall x, mr x = dim -> mc x = reps -> exists F, call1 f x = Ok F /\ mr F = dim /\ mc F = reps.

  (** one Euler-Maruyama step of dX = (f(X) + g^2 u) dt + g dW, of the controlled ensemble F and of the uncontrolled one Fn;
      u is the answer of calculate_u for grid index t and the controlled states at t-1; the random numbers come from the
      generator state s: first those of calculate_u, then the controlled noise, then the uncontrolled noise *)
  Definition simulated_step (o : obj T) (f : callable T) (g : T) (F U Fn : arr3 T) (t : nat) (s s' : S) : Prop :=
    exists u n1 n2 s1 s2 fx fy,
      calculate_u E o (mT (slice F (t-1))) (Z.of_nat t) s = (Ok u, s1) /\
      x_normal E s1 (nsqrt nmilli) (a_d F) (a_n F) = (n1, s2) /\
      x_normal E s2 (nsqrt nmilli) (a_d F) (a_n F) = (n2, s') /\
      call1 f (slice F (t-1)) = Ok fx /\ call1 f (slice Fn (t-1)) = Ok fy /\
      forall d r, d < a_d F -> r < a_n F ->
        get3 U d r t = get u d r /\
        get3 F d r t = nadd (nadd (nadd (get3 F d r (t-1)) (nmul nmilli (get fx d r))) (nmul (nmul nmilli (nsq g)) (get u d r)))
                            (nmul g (n1 d r)) /\
        get3 Fn d r t = nadd (nadd (get3 Fn d r (t-1)) (nmul nmilli (get fy d r))) (nmul g (n2 d r)).

  (** a simulation from s to s' of the first n grid points: both ensembles start at y1 and every later slice is one step; st t is the
      state of the generator after the step to grid index t *)
  Definition simulated_until (n : nat) (o : obj T) (f : callable T) (g : T) (y1 : list T) (F U Fn : arr3 T) (s s' : S) : Prop :=
    all_at F 0 y1 /\ all_at Fn 0 y1 /\
    exists st : nat -> S, st 0 = s /\ st (n-1) = s' /\
      forall t, 1 <= t < n -> simulated_step o f g F U Fn t (st (t-1)) (st t).
  (** of all grid points *)
  Definition simulated (o : obj T) := simulated_until (List.length (o_grid o)) o.

  (** the environment in which the noise arrays have a single column, the r-th of the ones E draws for reps trajectories *)
  Definition alone (reps r : nat) : Ext T S := {|
    x_normal := fun s sc d c => let (h, s') := x_normal E s sc d reps in ((fun i _ => h i r), s');
    x_uniform := x_uniform E; x_tuniform := x_tuniform E; x_inv := x_inv E; x_emd := x_emd E; x_otemd := x_otemd E |}.

  (** the drift of a trajectory depends on the state of that trajectory only *)
  Definition columnwise (dim reps r : nat) (f : callable T) : Prop :=
    forall x y, mr x = dim -> mc x = reps -> call1 f x = Ok y ->
      exists z, call1 f (mk dim 1 (fun d _ => get x d r)) = Ok z /\ mr z = dim /\ mc z = 1 /\
                forall d, d < dim -> get z d 0 = get y d r.
End ControlledSpec.
