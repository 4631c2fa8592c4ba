(** The systems of the paper's figures: drift functions and derived quantities.
    [NC] = DeterministicParticleFlowControl/data/scripts_for_plots/nonconservative_system_2D/plot_c_elegans_differentiation_2D_systematic.py
    [CO] = .../conservative_system_2D/plot_2d_evolutionary_UPDATED-fig2-of-paper-nmore.py (and -fig2b-, same functions)
    [EV] = .../evolutionary_process/gaussian_phenotype_compute_theoretical.py
    Simplifications: a state is a list (1-d) or a matrix with one column per particle (2-d); x**n is repeated multiplication; shape errors
    are ValueError.  Not modelled: the pictures, the loaded and saved files; the PICE comparison of [NC] is in Model/Pice.v. *)
From Coq Require Import String List ZArith Lia Bool.
From Verif Require Import Base.Num Base.Py Base.Arr Model.Ext Model.DPFC.
Import ListNotations.

Section Examples.
  Context {T S : Type} {O : NumOps T} (E : Ext T S).

  Fixpoint npow (x : T) (n : nat) : T := match n with 0 => none1 | 1 => x | Datatypes.S m => nmul x (npow x m) end.
  Definition nfour : T := nlit 4 1.

  (** ** [CO] lines 55-62 *)
  (** x0 = - 4*b*x[0]**3 + x[0]*(4*b*x[1]-2) + 2;   x1 = - 2*b*(x[1] - x[0]**2) *)
  Definition co0 (b x y : T) : T := nadd (nadd (nmul (nmul (nopp nfour) b) (npow x 3)) (nmul x (nsub (nmul (nmul nfour b) y) ntwo))) ntwo.
  Definition co1 (b x y : T) : T := nmul (nmul (nopp ntwo) b) (nsub y (nsq x)).
  (** U_path(x) = -(np.power(x[1] - y2[1], 2)) of a 2-d x: one row *)
  Definition co_U (y2 : list T) (x : mat T) : res (mat T) :=
    if 2 <=? mr x then let! c := pyget y2 1 in Ok (mk 1 (mc x) (fun _ j => nopp (nsq (nsub (get x 1 j) c)))) else Err IndexError.

  (** ** [NC] lines 537-616: cell differentiation; the script has p1 = p2 = p3 = p4 = 0.5 *)
  Record fate := { p1 : T; p2 : T; p3 : T; p4 : T }.
  Definition fate_script : fate := {| p1 := nhalf; p2 := nhalf; p3 := nhalf; p4 := nhalf |}.
  (** f (542-545); the numerator of the second fraction of x1 is p2**4 in the source *)
  Definition nc0 (q : fate) (x y : T) : T :=
    nsub (nadd (ndiv (npow x 4) (nadd (npow (p1 q) 4) (npow x 4))) (ndiv (npow (p2 q) 4) (nadd (npow (p2 q) 4) (npow y 4)))) x.
  Definition nc1 (q : fate) (x y : T) : T :=
    nsub (nadd (ndiv (npow y 4) (nadd (npow (p3 q) 4) (npow y 4))) (ndiv (npow (p2 q) 4) (nadd (npow (p4 q) 4) (npow x 4)))) y.
  Definition nc_f (q : fate) (x : list T) : res (list T) :=
    let! a := pyget x 0 in let! b := pyget x 1 in Ok [nc0 q a b; nc1 q a b].
  (** the diagonal terms -4*x**7/(p**4 + x**4) + 4*x**3/(p**4 + x**4) - 1   (548, 549, 553, 555) *)
  Definition nc_diag (p x : T) : T :=
    nsub (nadd (ndiv (nmul (nopp nfour) (npow x 7)) (nadd (npow p 4) (npow x 4))) (ndiv (nmul nfour (npow x 3)) (nadd (npow p 4) (npow x 4)))) none1.
  (** the off-diagonal terms -4*p**4*x**3 / (p**4 + x**4)**2   (554, 556) *)
  Definition nc_off (p x : T) : T :=
    ndiv (nmul (nmul (nopp nfour) (npow p 4)) (npow x 3)) (nsq (nadd (npow p 4) (npow x 4))).
  (** divf (547-550) *)
  Definition nc_divf (q : fate) (x y : T) : T := nadd (nc_diag (p1 q) x) (nc_diag (p3 q) y).
  (** gradfs (552-557): [dFx_dx, dFx_dy, dFy_dx, dFy_dy] *)
  Definition nc_gradfs (q : fate) (x y : T) : list T := [nc_diag (p1 q) x; nc_off (p2 q) y; nc_off (p4 q) x; nc_diag (p3 q) y].
  (** Uc (574-575): 0.5*(1/sigma**2)*(f(x).T@f(x) + sigma**2*divf(x)) of a 1-d x *)
  Definition nc_Uc (q : fate) (sigma x y : T) : T :=
    nmul (nmul nhalf (ndiv none1 (nsq sigma)))
         (nadd (nsum [nmul (nc0 q x y) (nc0 q x y); nmul (nc1 q x y) (nc1 q x y)]) (nmul (nsq sigma) (nc_divf q x y))).

  (** aa,bb,cc,dd = gradfs(y2); flin(x) = A1@x + f(y2) - A1@y2   (591-594) *)
  Definition nc_flin (q : fate) (y2 : T * T) (x : T * T) : T * T :=
    let (a, b) := y2 in
    let dg0 := nc_diag (p1 q) a in let o0 := nc_off (p2 q) b in let o1 := nc_off (p4 q) a in let dg1 := nc_diag (p3 q) b in
    (nsub (nadd (nsum [nmul dg0 (fst x); nmul o0 (snd x)]) (nc0 q a b)) (nsum [nmul dg0 a; nmul o0 b]),
     nsub (nadd (nsum [nmul o1 (fst x); nmul dg1 (snd x)]) (nc1 q a b)) (nsum [nmul o1 a; nmul dg1 b])).
  (** m_t[:,0] = y2; m_t[:,ti] = m_t[:,ti-1] + flin(m_t[:,ti-1])*0.001   (606-610): the column ti *)
  Fixpoint nc_mt (q : fate) (y2 : T * T) (ti : nat) : T * T :=
    match ti with
    | 0 => y2
    | Datatypes.S t => let m := nc_mt q y2 t in let d := nc_flin q y2 m in
                       (nadd (fst m) (nmul (fst d) nmilli), nadd (snd m) (nmul (snd d) nmilli))
    end.
  (** flin_var(C, t) = A@C + C@A.T + 1*np.eye(2,2)   (596-598), A the matrix of gradfs(y2) *)
  Definition nc_A (q : fate) (y2 : T * T) : mat T :=
    let l := nc_gradfs q (fst y2) (snd y2) in mk 2 2 (fun i j => nth (2 * i + j) l nzero).
  Definition nc_flin_var (A C : mat T) : res (mat T) :=
    let! a := mmul A C in let! b := mmul C (mT A) in let! c := bc2 nadd a b in bc2 nadd c (smul none1 (eye 2)).
  (** grad_log_p_Gauss(x, to) = -0.5*(inv(C_t[to]) + inv(C_t[to].T)) @ (x.T - m_t[:,to]).T   (613-614); x: 2 x n, C = C_t[to] (the output of
      odeintw: an argument here), m = m_t[:,to] *)
  Definition nc_grad_log_p (C : mat T) (m : list T) (x : mat T) : res (mat T) :=
    let! i1 := linalg_inv E C in
    let! i2 := linalg_inv E (mT C) in
    let! s := bc2 nadd i1 i2 in
    let! d := bc2 nsub (mT x) (vec m) in
    mmul (smul (nlit (-1) 2) s) (mT d).
  (** f1(x, t) (628-632): the drift of the Brownian bridge to y2 at time T *)
  Definition nc_f1 (Tend : T) (y2 : T * T) (x : T * T) (t : T) : T * T :=
    if neqb t Tend then (nzero, nzero)
    else (ndiv (nsub (fst y2) (fst x)) (nsub Tend t), ndiv (nsub (snd y2) (snd x)) (nsub Tend t)).

  (** ** [EV] *)
  (** f(x) = -2*K @ C @ x   (46-50); f0 is the same with K0 = np.diag(np.diag(K)) *)
  Definition ev_f (K C x : mat T) : res (mat T) := let! a := mmul (smul (nopp ntwo) K) C in mmul a x.
  Definition ev_diag (K : mat T) : mat T := mk (mr K) (mc K) (fun i j => if i =? j then get K i j else nzero).
  (** C = np.eye(2); C[0,0] = 2; C[1,1] = 4 (42-44) *)
  Definition ev_C : mat T := mk 2 2 (fun i j => if i =? j then (if i =? 0 then ntwo else nfour) else nzero).
  (** f_var(C, t) (63-65): the parameter C hides the matrix C, so A = -2*K @ C is computed with the covariance itself;
      f_var0 (67-69): the same with K0, and sigma0@sigma.T as the noise term *)
  Definition ev_f_var (K sg sg' C : mat T) : res (mat T) :=
    let! A := mmul (smul (nopp ntwo) K) C in
    let! a := mmul A C in let! b := mmul C (mT A) in let! c := bc2 nadd a b in
    let! n := mmul sg (mT sg') in bc2 nadd c n.
  (** grad_log_p_Gauss(x, m_t, C_t) = -inv(C_t.T + 1e-6*eye) @ (x - np.atleast_2d(m_t).T)   (91-94) *)
  Definition ev_grad_log_p (x : mat T) (m : list T) (C : mat T) : res (mat T) :=
    let! r := bc2 nadd (mT C) (smul (nlit 1 1000000) (eye (mr C))) in
    let! i := linalg_inv E r in
    let! d := bc2 nsub x (mT (vec m)) in
    mmul (mopp i) d.
  (** u(x, ti) = sigma@sigma.T @ (grad_log_q(x,ti) - grad_log_p(x,ti))   (97-107), with grad_log_q at the index timegrid.size-ti-1 of the flow
      started at y2.  ms, Cs, mbs, Cbs: the outputs of odeint/odeintw (m_t, C_t, m_tb, C_tb), one entry per grid point *)
  Definition ev_u (sg : mat T) (ms : list (list T)) (Cs : list (mat T)) (mbs : list (list T)) (Cbs : list (mat T)) (x : mat T) (ti : Z) : res (mat T) :=
    let rev := (Z.of_nat (List.length ms) - ti - 1)%Z in
    let! mb := pyget mbs rev in let! Cb := pyget Cbs rev in
    let! q := ev_grad_log_p x mb Cb in
    let! m := pyget ms ti in let! C := pyget Cs ti in
    let! p := ev_grad_log_p x m C in
    let! d := bc2 nsub q p in
    let! s := mmul sg (mT sg) in mmul s d.
  (** the simulation (110-125): AFcont0 is driven by f and g (of the true system) and the control u0 of the misspecified one; h = 0.001.
      One loop body; AF0 is stepped first.  Arrays (2, reps, size). *)
  Record ev_state := { ev_F : arr3 T; ev_F0 : arr3 T }.
  Definition ev_step (K C sg : mat T) (u : mat T -> Z -> res (mat T)) (reps ti : nat) (A : arr3 T) : M S (arr3 T) :=
    let* x := lift (getsl A (Z.of_nat ti - 1)) in
    let* fx := lift (ev_f K C x) in
    let* a := lift (bc2 nadd x (smul nmilli fx)) in
    let* ux := lift (u x (Z.of_nat ti - 1)%Z) in
    let* b := lift (bc2 nadd a (smul nmilli ux)) in
    let* noise := normal E (nsqrt nmilli) 2 reps in
    lift (let! gn := mmul sg noise in let! y := bc2 nadd b gn in setsl A (Z.of_nat ti) y).
  Definition ev_body (K C sg : mat T) (u u0 : mat T -> Z -> res (mat T)) (y1 : list T) (reps : nat) (c : ev_state) (it : nat * T) : M S ev_state :=
    let (ti, _) := it in
    if ti =? 0 then
      lift (let! a := pin 2 y1 0 (ev_F c) in let! b := pin 2 y1 0 (ev_F0 c) in Ok {| ev_F := a; ev_F0 := b |})
    else
      let* b := ev_step K C sg u0 reps ti (ev_F0 c) in
      let* a := ev_step K C sg u reps ti (ev_F c) in
      ret {| ev_F := a; ev_F0 := b |}.
  Definition ev_simulation (K C sg : mat T) (u u0 : mat T -> Z -> res (mat T)) (y1 : list T) (reps : nat) (grid : list T) : M S ev_state :=
    mfold (ev_body K C sg u u0 y1 reps) (enumerate grid)
      {| ev_F := zeros3 2 reps (List.length grid); ev_F0 := zeros3 2 reps (List.length grid) |}.
End Examples.
Arguments fate : clear implicits. Arguments ev_state : clear implicits.
