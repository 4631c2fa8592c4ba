(** The comparison method of the cell-differentiation figure: path integral cross entropy (PICE).
    [NC] = DeterministicParticleFlowControl/data/scripts_for_plots/nonconservative_system_2D/plot_c_elegans_differentiation_2D_systematic.py,
    lines 700-898 (features, training, simulation) and 1083, 1149 (the numbers of the figure).
    Simplifications: nansum and nanmean are sum and mean (no nan in the model); the array At of all iterates is the current iterate (only At[..,iteri]
    is read and only At[..,iteri+1] is written in iteration iteri); Ht and dQ (overwritten before they are read) are local; the weights of
    annealing and effective sample size, never used, are left out; bas with an order above 15 returns None, which no later operation accepts: TypeError.
    np.linalg.pinv is an argument. *)
From Coq Require Import String List ZArith Lia Bool.
From Verif Require Import Base.Num Base.Py Base.Arr Model.Ext Model.DPFC Model.Examples.
Import ListNotations.

Section Pice.
  Context {T S : Type} {O : NumOps T} (E : Ext T S) (pinv : mat T -> res (mat T)).

  (** bas(x, ord) (711-743) *)
  Definition bas (x y : T) (ord : nat) : T :=
    match ord with
    | 0 => nadd (nmul x nzero) none1
    | 1 => x
    | 2 => y
    | 3 => nmul x y
    | 4 => nsq x
    | 5 => nsq y
    | 6 => nmul (nsq x) y
    | 7 => nmul (nsq y) x
    | 8 => npow x 3
    | 9 => npow y 3
    | 10 => nmul (nsq x) (nsq y)
    | 11 => nmul (nsq x) (nsq y)
    | 12 => nmul (npow x 3) y
    | 13 => nmul (npow y 3) x
    | 14 => npow y 4
    | _ => npow y 4
    end.
  (** np.array([bas(x,l) for l in range(bas_order+1)]) (797, 863); nb = bas_order+1, x of shape 2 x n *)
  Definition basis (nb : nat) (z : mat T) : res (mat T) :=
    if mr z <? 2 then Err IndexError else
    if 16 <? nb then Err TypeError else Ok (mk nb (mc z) (fun l n => bas (get z 0 n) (get z 1 n) l)).
  (** f (542-545) of a 2 x n array *)
  Definition fate_map (q : fate T) (z : mat T) : res (mat T) :=
    if mr z <? 2 then Err IndexError else
    Ok (mk 2 (mc z) (fun d n => if d =? 0 then nc0 q (get z 0 n) (get z 1 n) else nc1 q (get z 0 n) (get z 1 n))).
  (** At[di,ti,:,iteri] *)
  Definition coefs := list (list (list T)).
  (** uf_pice(x, ti, iteri) (788-798) *)
  Definition uf_pice (nb : nat) (A : coefs) (z : mat T) (ti : Z) : res (mat T) :=
    let! rows := rmapM (fun di =>
        let! c := pyget A (Z.of_nat di) in let! a := pyget c ti in
        let! h := basis nb z in let! r := mmul (vec a) h in Ok (row r 0)) (seq 0 2) in
    Ok (mk 2 (mc z) (fun d n => nth n (nth d rows []) nzero)).

  (** phi(x, alph) = np.sum(alph @ np.sqrt((x-po)**2), axis=0) of a number x (752-760), po = y2 *)
  Definition phi (y2 alph : list T) (x : T) : T :=
    nsum (map (fun e => nmul (nth e alph nzero) (nsqrt (nsq (nsub x (nth e y2 nzero))))) (seq 0 2)).
  (** phi2(x, alph) = -np.vectorize(phi)(x) (762-764): np.vectorize passes the ENTRIES of x one by one *)
  Definition phi2 (y2 alph : list T) (z : mat T) : res (mat T) :=
    if (mr z =? 0) || (mc z =? 0) then Err ValueError else Ok (mmap1 (fun v => nopp (phi y2 alph v)) z).

  (** the simulation of one iteration (807-814) *)
  Record roll := { r_nos : arr3 T; r_us : arr3 T; r_Z : arr3 T }.
  Definition roll_body (f : mat T -> res (mat T)) (sigma : T) (nb : nat) (A : coefs) (N : nat) (c : roll) (it : nat * T) : M S roll :=
    let (ti, _) := it in
    if ti =? 0 then ret c
    else
      let p := (Z.of_nat ti - 1)%Z in
      let* w := normal E (nsqrt dt) 2 N in
      let nu := smul sigma w in
      let* nos := lift (setsl (r_nos c) p nu) in
      let* z := lift (getsl (r_Z c) p) in
      let* u := lift (uf_pice nb A z p) in
      let* us := lift (setsl (r_us c) p u) in
      let* fz := lift (f z) in
      lift (let! a := bc2 nadd z (smul dt fz) in
            let! ui := getsl us p in
            let! b := bc2 nadd a (smul (nmul dt sigma) ui) in
            let! ni := getsl nos p in
            let! y := bc2 nadd b ni in
            let! zz := setsl (r_Z c) (Z.of_nat ti) y in
            Ok {| r_nos := nos; r_us := us; r_Z := zz |}).
  Definition rollout (f : mat T -> res (mat T)) (sigma : T) (nb : nat) (A : coefs) (N : nat) (y1 : list T) (grid : list T) (c : roll) : M S roll :=
    let* z0 := lift (pin 2 y1 0 (r_Z c)) in
    mfold (roll_body f sigma nb A N) (enumerate grid) {| r_nos := r_nos c; r_us := r_us c; r_Z := z0 |}.

  (** Su (823), with R = 1 (707) *)
  Definition path_cost (y2 alph : list T) (k : nat) (c : roll) : res (list T) :=
    let! zend := getsl (r_Z c) (-1) in
    let! ph := phi2 y2 alph zend in
    Ok (map (fun n =>
      nsub (nadd (nsum (flat_map (fun d => map (fun t => nmul (nmul nhalf (nsq (get3 (r_us c) d n t))) dt) (seq 0 k)) (seq 0 2)))
                 (nsum (flat_map (fun d => map (fun t => nmul (get3 (r_us c) d n t) (get3 (r_nos c) d n t)) (seq 0 k)) (seq 0 2))))
           (nsum (map (fun d => get ph d n) (seq 0 2)))) (seq 0 (mc zend))).
  (** wu (824, 829) *)
  Definition cost_weights (Su : list T) : list T :=
    let w := map (fun v => nexp (nopp v)) Su in map (fun v => ndiv v (nsum w)) w.

  (** (iteri>50) and (np.abs(np.mean(np.diff(endpoints[iteri-50:iteri]))) < 0.001) (842, 848) *)
  Definition diff (l : list T) : list T := map (fun i => nsub (nth (i + 1) l nzero) (nth i l nzero)) (seq 0 (List.length l - 1)).
  Definition stuck (e : list T) (iteri : nat) : bool :=
    (50 <? iteri) && nltb (nabs (nmean (diff (firstn 50 (skipn (iteri - 50) e))))) nmilli.
  Record trained := { tr_A : coefs; tr_roll : roll; tr_e1 : list T; tr_e2 : list T; tr_alph : list T; tr_jc1 : Z; tr_jc2 : Z }.
  (** the weights of the end cost (842-857): (alph, just_changed1, just_changed2) *)
  Definition adjust (e1 e2 : list T) (iteri : nat) (alph : list T) (jc1 jc2 : Z) : list T * Z * Z :=
    if stuck e1 iteri && (jc1 <=? 0)%Z then (upd alph 0 (nmul (nth 0 alph nzero) (nlit 5 4)), 50%Z, jc2)
    else if stuck e2 iteri && (jc2 <=? 0)%Z then (upd alph 1 (nmul (nth 1 alph nzero) (nlit 5 4)), jc1, 50%Z)
    else (alph, (jc1 - 1)%Z, (jc2 - 1)%Z).

  (** one entry of At[.., iteri+1] (865-870): eta*dQ/dt @ pinv(Ht) added *)
  Definition new_coefs (eta : T) (nb : nat) (wu : list T) (c : roll) (di ti : nat) (a : list T) : res (list T) :=
    let! z := getsl (r_Z c) (Z.of_nat ti) in
    let! h := basis nb z in
    let n := mc z in
    let Ht := mk nb nb (fun i j => nsum (map (fun m => nmul (nmul (nth m wu nzero) (get h i m)) (get h j m)) (seq 0 n))) in
    let dQ := mk 1 nb (fun _ l => nsum (map (fun m => nmul (nmul (nth m wu nzero) (get3 (r_nos c) di m ti)) (get h l m)) (seq 0 n))) in
    let! P := pinv Ht in
    let! d := mmul (divs (smul eta dQ) dt) P in
    let! r := bc2 nadd (vec a) d in Ok (row r 0).
  Definition update (eta : T) (nb : nat) (wu : list T) (c : roll) (k : nat) (A : coefs) : res coefs :=
    rmapM (fun di => let! ca := pyget A (Z.of_nat di) in
                     rmapM (fun ti => let! a := pyget ca (Z.of_nat ti) in new_coefs eta nb wu c di ti a) (seq 0 k)) (seq 0 2).

  (** the endpoints of the iteration are close to the target (832-838) *)
  Definition arrived (y2 : list T) (e1 e2 : T) : bool :=
    nleb (nabs (nsub e1 (nth 0 y2 nzero))) (nlit 1 100) && nleb (nabs (nsub e2 (nth 1 y2 nzero))) (nlit 1 100).
  (** the training loop (804-873) over range(0, max_iter-1), of n iterations starting with iteri.  Result: (iterat, state) where the coefficients
      of the state are At[.., iterat]; the coefficients computed in the last iteration are not used afterwards.  An empty range leaves
      iteri undefined (NameError). *)
  Fixpoint train (f : mat T -> res (mat T)) (sigma eta : T) (nb N : nat) (y1 y2 grid : list T) (n iteri : nat) (c : trained) : M S (nat * trained) :=
    match n with
    | 0 => raise NameError
    | Datatypes.S n' =>
      let k := List.length grid in
      let* r := rollout f sigma nb (tr_A c) N y1 grid (tr_roll c) in
      let* Su := lift (path_cost y2 (tr_alph c) k r) in
      let wu := cost_weights Su in
      let* zend := lift (getsl (r_Z r) (-1)) in
      let e1 := nmean (row zend 0) in
      let e2 := nmean (row zend 1) in
      let es1 := (tr_e1 c ++ [e1])%list in
      let es2 := (tr_e2 c ++ [e2])%list in
      if arrived y2 e1 e2 then
        ret (iteri, {| tr_A := tr_A c; tr_roll := r; tr_e1 := es1; tr_e2 := es2; tr_alph := tr_alph c; tr_jc1 := tr_jc1 c; tr_jc2 := tr_jc2 c |})
      else
        let '(alph, jc1, jc2) := adjust es1 es2 iteri (tr_alph c) (tr_jc1 c) (tr_jc2 c) in
        let* A := lift (update eta nb wu r k (tr_A c)) in
        match n' with
        | 0 => ret (iteri, {| tr_A := tr_A c; tr_roll := r; tr_e1 := es1; tr_e2 := es2; tr_alph := alph; tr_jc1 := jc1; tr_jc2 := jc2 |})
        | _ => train f sigma eta nb N y1 y2 grid n' (iteri + 1)
                 {| tr_A := A; tr_roll := r; tr_e1 := es1; tr_e2 := es2; tr_alph := alph; tr_jc1 := jc1; tr_jc2 := jc2 |}
        end
    end.
  (** lines 780-803: the zero coefficients *)
  Definition untrained (nb N k : nat) : trained :=
    {| tr_A := repeat (repeat (repeat nzero nb) k) 2; tr_roll := {| r_nos := zeros3 2 N k; r_us := zeros3 2 N k; r_Z := zeros3 2 N k |};
       tr_e1 := []; tr_e2 := []; tr_alph := [none1; none1]; tr_jc1 := 0%Z; tr_jc2 := 0%Z |}.
  Definition pice (f : mat T -> res (mat T)) (sigma eta : T) (nb N : nat) (y1 y2 grid : list T) (max_iter : nat) : M S (nat * trained) :=
    train f sigma eta nb N y1 y2 grid (max_iter - 1) 0 (untrained nb N (List.length grid)).

  (** the simulation with the trained coefficients (873-898): the control enters with g**2 *)
  Record pice_sim := { ps_F : arr3 T; ps_u : arr3 T }.
  Definition ps_body (f : mat T -> res (mat T)) (g : T) (nb : nat) (A : coefs) (y1 : list T) (reps : nat) (c : pice_sim) (it : nat * T) : M S pice_sim :=
    let (ti, _) := it in
    if ti =? 0 then lift (let! a := pin 2 y1 0 (ps_F c) in Ok {| ps_F := a; ps_u := ps_u c |})
    else
      let p := (Z.of_nat ti - 1)%Z in
      let* z := lift (getsl (ps_F c) p) in
      let* u := lift (uf_pice nb A z p) in
      let* us := lift (setsl (ps_u c) (Z.of_nat ti) u) in
      let* fz := lift (f z) in
      let* a := lift (bc2 nadd z (smul dt fz)) in
      let* b := lift (bc2 nadd a (smul (nmul dt (nsq g)) u)) in
      let* w := normal E (nsqrt dt) 2 reps in
      lift (let! y := bc2 nadd b (smul g w) in let! F := setsl (ps_F c) (Z.of_nat ti) y in Ok {| ps_F := F; ps_u := us |}).
  Definition pice_simulation (f : mat T -> res (mat T)) (g : T) (nb : nat) (A : coefs) (y1 : list T) (reps : nat) (grid : list T) : M S pice_sim :=
    mfold (ps_body f g nb A y1 reps) (enumerate grid)
      {| ps_F := zeros3 2 reps (List.length grid); ps_u := zeros3 2 reps (List.length grid) |}.

  (** the two numbers compared in the figure for one repetition r: np.power(np.sum(np.sqrt(np.nansum(np.power(u,2),axis=0)),axis=-1),2)/(T/dt)
      over the entries [:-1] (1083, before np.log), and np.sqrt(np.sum((F[..,-1]-y2)**2)) (1149) *)
  Definition control_number (Tend : T) (u : arr3 T) (r : nat) : T :=
    ndiv (nsq (nsum (map (fun t => nsqrt (nsum (map (fun d => nsq (get3 u d r t)) (seq 0 2)))) (seq 0 (a_k u - 1))))) (ndiv Tend dt).
  Definition terminal_number (y2 : list T) (F : arr3 T) (r : nat) : T :=
    nsqrt (nsum (map (fun d => nsq (nsub (get3 F d r (a_k F - 1)) (nth d y2 nzero))) (seq 0 2))).
End Pice.
Arguments roll : clear implicits. Arguments trained : clear implicits. Arguments pice_sim : clear implicits. Arguments coefs : clear implicits.
