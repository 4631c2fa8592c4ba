(** The Kuramoto example: notebooks/Kuramoto_synchronisation/systematic_multi_N_kuramoto_inhomogeneous_for_cluster.py
    (class BRIDGE_ND_reweight, lines 481-852; constraint, drift and simulation, lines 854-986).
    The class is a variant of DPFC for phases: every state it computes is reduced modulo 2*pi.
    score_function_multid_seperate_all_dims of this file (lines 271-477) is, for kern='RBF', the function of the same name in the package
    (Model/Score.v); the additional np.testing.assert_allclose compares two evaluations of the same formula.
    Not modelled: forward_sampling and reject_trajectories (never called), the output files, the command line, the attributes BPWE*
    (never read), the dead statement W = np.ones((N,1))/N in backward_simulation (it reads the global N of the script).
    Simplifications: g is a number; y1 is a 1-d array; the drift and the constraint are called with 2-d arrays except in the
    simulation (1-d); shape errors inside f are reported as ValueError. *)
From Coq Require Import String List ZArith Lia Bool.
From Verif Require Import Base.Num Base.Py Base.Arr Model.Ext Model.Cdist Model.Score Model.DPFC.
Import ListNotations.

Section Kuramoto.
  Context {T S : Type} {O : NumOps T} (E : Ext T S).
  (** x % (2*np.pi) *)
  Context (wrap : T -> T).
  (** np.random.multivariate_normal(mean, cov, n): n rows *)
  Context (mvn : S -> list T -> mat T -> nat -> (nat -> nat -> T) * S).

  (** ** The class (481-566).  y2, dens_est, reject and plotting are accepted and have no effect. *)
  Record kpar := { k_t1 : T; k_t2 : T; k_y1 : list T; k_f : mat T -> T -> res (mat T); k_g : T; k_N : nat; k_k : nat; k_M : nat;
                   k_reweight : bool; k_U : mat T -> res (mat T); k_kern : string; k_dt : T }.
  Record kobj := { ko_par : kpar; ko_grid : list T; ko_Z : arr3 T; ko_B : arr3 T }.

  (** f_seperate (611-629): the drift minus half g^2 times the score of x at x *)
  Definition k_drift (p : kpar) (x : mat T) (t : T) : M S (mat T) :=
    let* bnds := lift (own_bnds x) in
    let* Sxx := sample_box E (k_M p) bnds in
    let* G := lift (score_function_multid_seperate_all_dims E (mT x) (mT Sxx) nmilli (k_kern p) (LVec (two_std x))) in
    let* fx := lift (k_f p x t) in
    lift (bc2 nsub fx (smul (nmul nhalf (nsq (k_g p))) (mT G))).

  (** M = ot.dist(Z.T, Z.T); M /= M.max()   (671-672) *)
  Definition k_cost (x : mat T) : res (mat T) :=
    let! c := cdist_sq (mT x) (mT x) in
    let! mx := lmax (flat_map (row c) (seq 0 (mr c))) in
    Ok (divs c mx).
  (** W[:,0] = exp(U(Z)); W = W/sum(W); T2 = ot.emd(W[:,0], ones/N, M); (N*Z @ T2) % 2 pi   (651-680) *)
  Definition k_reweight_slice (p : kpar) (x : mat T) : res (mat T) :=
    let! u := k_U p x in
    let! w := weights_of (k_N p) u in
    let! c := k_cost x in
    let b := repeat (ndiv none1 (nofnat (k_N p))) (k_N p) in
    let T2 := mk (k_N p) (k_N p) (x_otemd E w b c) in
    let! y := mmul (smul (nofnat (k_N p)) x) T2 in
    Ok (mmap1 wrap y).

  (** forward_sampling_Otto, loop body (632-684) *)
  Definition k_forward_body (p : kpar) (Zf : arr3 T) (it : nat * T) : M S (arr3 T) :=
    let (ti, tt) := it in
    let dim := List.length (k_y1 p) in
    let* Z1 :=
      (if ti =? 0 then                                                          (* 640 *)
         fun s => let (h, s') := mvn s (k_y1 p) (divs (muls (eye dim) (k_g p)) ntwo) (k_N p) in
                  (setsl Zf 0 (mk dim (k_N p) (fun d n => h n d)), s')
       else
         let* x := lift (getsl Zf (Z.of_nat ti - 1)) in
         let* y :=
           (if ti =? 1 then                                                     (* 643-644 *)
              let* fx := lift (k_f p x (nsub tt (k_dt p))) in
              let* a := lift (bc2 nadd x (smul (k_dt p) fx)) in
              let* noise := normal E (nsqrt (k_dt p)) dim (k_N p) in
              lift (bc2 nadd a (smul (k_g p) noise))
            else                                                                (* 647 *)
              let* d := k_drift p x (nsub tt (k_dt p)) in
              lift (bc2 nadd x (smul (k_dt p) d))) in
         lift (setsl Zf (Z.of_nat ti) (mmap1 wrap y))) in
    if k_reweight p && (0 <? ti) then
      lift (let! x := getsl Z1 (Z.of_nat ti) in
            let! y := k_reweight_slice p x in
            setsl Z1 (Z.of_nat ti) y)
    else ret Z1.
  Definition k_forward (p : kpar) (grid : list T) (Zf : arr3 T) : M S (arr3 T) := mfold (k_forward_body p) (enumerate grid) Zf.

  (** density_estimation(ti, rev_ti) (686-709): the score of Z at rev_ti-1, evaluated at B at rev_ti *)
  Definition k_density (p : kpar) (Zf B : arr3 T) (rev : Z) : M S (mat T) :=
    let* z := lift (getsl Zf (rev - 1)) in
    let* b := lift (getsl B rev) in
    let* bnds := lift (inter_bnds (List.length (k_y1 p)) z b) in
    let* Sxx := sample_box E (k_M p) bnds in
    lift (let! fn := score_function_multid_seperate_all_dims_fun E (mT z) (mT Sxx) nmilli (k_kern p) (LVec (two_std z)) in
          let! G := fn (mT b) in Ok (mT G)).
  (** bw_density_estimation(ti, rev_ti) (712-733): the score of B at rev_ti, at B itself *)
  Definition k_bw_density (p : kpar) (Zf B : arr3 T) (rev : Z) : M S (mat T) :=
    let* b := lift (getsl B rev) in
    let* z := lift (getsl Zf (rev - 1)) in
    let* bnds := lift (inter_bnds (List.length (k_y1 p)) z b) in
    let* Sxx := sample_box E (k_M p) bnds in
    lift (let! G := score_function_multid_seperate_all_dims E (mT b) (mT Sxx) nmilli (k_kern p) (LVec (two_std b)) in Ok (mT G)).

  (** for di in range(dim): B[di,:,-1] = Z[di,:,-1]   (741-742) *)
  Definition k_pin_end (dim : nat) (Zf B : arr3 T) : res (arr3 T) :=
    let! z := getsl Zf (-1) in
    rfold (fun B di => let! b := getsl B (-1) in
                       let! b' := setrow b (Z.of_nat di) (vec (row z di)) in setsl B (-1) b') (seq 0 dim) B.

  (** backward_simulation (736-764) *)
  Definition k_back_body (p : kpar) (grid : list T) (Zf : arr3 T) (B : arr3 T) (it : nat * T) : M S (arr3 T) :=
    let (ti, _) := it in
    let dim := List.length (k_y1 p) in
    if ti =? 0 then lift (k_pin_end dim Zf B)
    else
      let rev := (Z.of_nat (List.length grid) - Z.of_nat ti)%Z in
      let* gro := k_density p Zf B rev in
      let* y :=
        (if ti =? 1 then                                                        (* 752-753 *)
           let* x := lift (getsl B rev) in
           let* t := lift (pyget grid rev) in
           let* fx := lift (k_f p x t) in
           let* a := lift (bc2 nsub x (muls fx (k_dt p))) in
           let* ac := lift (bc2 nadd a (smul (nmul (k_dt p) (nsq (k_g p))) gro)) in
           let* noise := normal E (nsqrt (k_dt p)) dim (k_N p) in
           lift (bc2 nadd ac (smul (k_g p) noise))
         else                                                                   (* 755-757 *)
           let* gb := k_bw_density p Zf B rev in
           lift (let! x := getsl B rev in
                 let! t := pyget grid rev in
                 let! fx := k_f p x t in
                 let! d1 := bc2 nsub fx (smul (nsq (k_g p)) gro) in
                 let! d2 := bc2 nadd d1 (smul (nmul nhalf (nsq (k_g p))) gb) in
                 bc2 nsub x (muls d2 (k_dt p)))) in
      lift (setsl B (rev - 1) (mmap1 wrap y)).
  Definition k_backward (p : kpar) (grid : list T) (Zf B : arr3 T) : M S (arr3 T) :=
    let* B1 := mfold (k_back_body p grid Zf) (enumerate (init grid)) B in
    lift (pin (List.length (k_y1 p)) (k_y1 p) 0 B1).                            (* 761-762 *)

  (** __init__ (482-566); the arrays have the k columns the caller asks for, the grid is computed from t1, t2 and dt *)
  Definition k_construct (p : kpar) : M S kobj :=
    let dim := List.length (k_y1 p) in
    let grid := np_arange (k_t1 p) (nadd (k_t2 p) (ndiv (k_dt p) ntwo)) (k_dt p) in
    let zeros := zeros3 dim (k_N p) (k_k p) in
    let* Zf := k_forward p grid zeros in
    let* B := k_backward p grid Zf zeros in
    ret {| ko_par := p; ko_grid := grid; ko_Z := Zf; ko_B := B |}.

  (** calculate_u(grid_x, ti) (789-825) *)
  Definition k_calculate_u (o : kobj) (gx : mat T) (ti : Z) : M S (mat T) :=
    let p := ko_par o in
    let* b := lift (getsl (ko_B o) ti) in
    let l := LVec (two_std b) in
    let* z := lift (getsl (ko_Z o) ti) in
    let* bnds := lift (inter_bnds (List.length (k_y1 p)) z b) in
    let* Sxx := sample_box E (k_M p) bnds in
    lift (let! fb := score_function_multid_seperate_all_dims_fun E (mT b) (mT Sxx) nmilli (k_kern p) l in
          let! sb := fb (mT gx) in
          let! fz := score_function_multid_seperate_all_dims_fun E (mT z) (mT Sxx) nmilli (k_kern p) l in
          let! sz := fz (mT gx) in
          let! u := bc2 nsub sb sz in Ok (mT u)).

  (** check_if_covered(X, ti) (828-852) *)
  Definition k_check_if_covered (o : kobj) (X : list T) (ti : Z) : res bool :=
    rfold (fun cov ii =>
        let! z := getsl (ko_Z o) ti in
        let! b := getsl (ko_B o) ti in
        let! bnd := inter_bnd z b ii in
        let! x := pyget X (Z.of_nat ii) in
        Ok (cov && (nleb (fst bnd) x && nleb x (snd bnd)))) (seq 0 (List.length (k_y1 (ko_par o)))) true.

  (** ** The oscillators *)
  (** R_t(x) = (1/dim) * np.abs(np.sum(np.exp(1j*x)))   (886-887) *)
  Definition kur_R (dim : nat) (x : list T) : T :=
    nmul (ndiv none1 (nofnat dim)) (nsqrt (nadd (nsq (nsum (map ncos x))) (nsq (nsum (map nsin x))))).
  (** U(x) = -1*(1 - (1/dim)*np.abs(np.sum(np.exp(1j*x), axis=0)))   (890-895) *)
  Definition kur_U (dim : nat) (x : mat T) : res (mat T) :=
    Ok (mk 1 (mc x) (fun _ n => nmul (nopp none1) (nsub none1 (kur_R dim (col x n))))).
  (** ws[:round(dim/2)] = freq; ws[round(dim/2):] = -freq   (931-933); round is round-half-to-even *)
  Definition kur_half (dim : nat) : nat := let h := Nat.div2 dim in if Nat.even dim then h else if Nat.even h then h else Datatypes.S h.
  Definition kur_ws (dim : nat) (freq : T) : list T := map (fun d => if d <? kur_half dim then freq else nopp freq) (seq 0 dim).
  (** f(x, t=0): difs[i,j] = -sin(x[j] - x[i]);  ws + (K/dim)*np.sum(difs, axis=0)   (937-950) *)
  Definition kur_point (K : T) (ws x : list T) : list T :=
    map (fun j => nadd (nth j ws nzero)
      (nmul (ndiv K (nofnat (List.length ws))) (nsum (map (fun i => nopp (nsin (nsub (nth j x nzero) (nth i x nzero)))) (seq 0 (List.length x))))))
      (seq 0 (List.length ws)).
  Definition kur_f1 (K : T) (ws x : list T) : res (list T) :=
    if List.length x =? List.length ws then Ok (kur_point K ws x) else Err ValueError.
  Definition kur_f (K : T) (ws : list T) (x : mat T) (t : T) : res (mat T) :=
    if mr x =? List.length ws then Ok (mk (mr x) (mc x) (fun d n => nth d (kur_point K ws (col x n)) nzero)) else Err ValueError.

  (** ** The controlled simulation (957-986).  Fcont, Fnon (initially nan), used_us, Rttcont, Rttnon; arrays (dim, k, reps) are stored as
      dim x reps x k. *)
  Record ksim := { ks_F : arr3 T; ks_n : arr3 T; ks_u : arr3 T; ks_RF : mat T; ks_Rn : mat T }.
  (** A[i, j] = v for non-negative i, j *)
  Definition setentry (A : mat T) (i j : nat) (v : T) : res (mat T) :=
    if (i <? mr A) && (j <? mc A) then Ok (mk (mr A) (mc A) (fun a b => if (a =? i) && (b =? j) then v else get A a b)) else Err IndexError.
  (** A[:, t, r] of an array stored as d x reps x k *)
  Definition getcol3 (A : arr3 T) (t : Z) (r : nat) : res (list T) := let! m := getsl A t in Ok (col m r).

  Definition k_sim_body (o : kobj) (K : T) (ws : list T) (g h : T) (y0 : list T) (r : nat) (c : ksim) (it : nat * T) : M S ksim :=
    let (ti, _) := it in
    let dim := List.length y0 in
    if ti =? 0 then                                                             (* 969-971 *)
      lift (let! F := setcol3 (ks_F c) (Z.of_nat r) 0 (vec y0) in
            let! Fn := setcol3 (ks_n c) (Z.of_nat r) 0 (vec y0) in
            Ok {| ks_F := F; ks_n := Fn; ks_u := ks_u c; ks_RF := ks_RF c; ks_Rn := ks_Rn c |})
    else
      let* x := lift (getcol3 (ks_F c) (Z.of_nat ti - 1) r) in
      let q := if ti =? List.length (ko_grid o) - 1 then (Z.of_nat ti - 1)%Z else Z.of_nat ti in    (* 974-977 *)
      let* uu := k_calculate_u o (mk dim 1 (fun d _ => nth d x nzero)) q in
      let* us := lift (setcol3 (ks_u c) (Z.of_nat r) (Z.of_nat ti) (vec (col uu 0))) in
      let* fx := lift (kur_f1 K ws x) in
      let* noise := normal E (nsqrt h) 1 dim in
      let y := map (fun d => wrap (nadd (nadd (nadd (nth d x nzero) (nmul h (nth d fx nzero))) (nmul (nmul h (nsq g)) (get uu d 0)))
                                        (nmul g (get noise 0 d)))) (seq 0 dim) in
      let* F := lift (setcol3 (ks_F c) (Z.of_nat r) (Z.of_nat ti) (vec y)) in
      let* x' := lift (getcol3 (ks_n c) (Z.of_nat ti - 1) r) in
      let* fx' := lift (kur_f1 K ws x') in
      let* noise' := normal E (nsqrt h) 1 dim in
      let y' := map (fun d => wrap (nadd (nadd (nth d x' nzero) (nmul h (nth d fx' nzero))) (nmul g (get noise' 0 d)))) (seq 0 dim) in
      let* Fn := lift (setcol3 (ks_n c) (Z.of_nat r) (Z.of_nat ti) (vec y')) in
      let* RF := lift (setentry (ks_RF c) ti r (kur_R dim y)) in
      let* Rn := lift (setentry (ks_Rn c) ti r (kur_R dim y')) in
      ret {| ks_F := F; ks_n := Fn; ks_u := us; ks_RF := RF; ks_Rn := Rn |}.
  Definition k_simulation (o : kobj) (K : T) (ws : list T) (g h : T) (y0 : list T) (grid : list T) (reps : nat) : M S ksim :=
    let dim := List.length y0 in let k := List.length grid in
    let nan3 := Arr3 dim reps k (repeat (mconst dim reps (ndiv nzero nzero)) k) in
    mfold (fun c r => mfold (k_sim_body o K ws g h y0 r) (enumerate (init grid)) c) (seq 0 reps)
      {| ks_F := nan3; ks_n := nan3; ks_u := zeros3 dim reps k; ks_RF := mzeros k reps; ks_Rn := mzeros k reps |}.
  (** The script (898-986) after its command line: h = 0.001, t1 = 0, t2 = 0.5, k the size of timegrid, the bridge with constraint U and
      reweight=True, then the simulation.  y0 (np.random.normal(3, 0.5, dim), line 930) is an argument; y2 is not used by the class. *)
  Definition k_script (K freq g : T) (N m reps : nat) (y0 : list T) : M S (kobj * ksim) :=
    let dim := List.length y0 in
    let h := nmilli in
    let grid := np_arange nzero (nadd (nsub nhalf nzero) (ndiv h ntwo)) h in
    let ws := kur_ws dim freq in
    let* o := k_construct {| k_t1 := nzero; k_t2 := nhalf; k_y1 := y0; k_f := kur_f K ws; k_g := g; k_N := N; k_k := List.length grid; k_M := m;
                             k_reweight := true; k_U := kur_U dim; k_kern := "RBF"; k_dt := h |} in
    let* c := k_simulation o K ws g h y0 grid reps in
    ret (o, c).
End Kuramoto.
Arguments kpar : clear implicits. Arguments kobj : clear implicits. Arguments ksim : clear implicits.
