(** class DPFC (numpy) of DeterministicParticleFlowControl.py, lines 78-726.
    All line numbers below refer to that file unless another file is named.
    Not modelled: logging, wall-clock timing, the pictures drawn in lines 350-351 and 462-464 (only the
    IndexError of their subscripts), user callables that mutate their arguments, y1/y2 that are not 1-d,
    flags that are not Python bools. *)
From Coq Require Import String List ZArith Lia Bool.
From Verif Require Import Base.Num Base.Py Base.Arr Model.Ext Model.Cdist Model.Reweight Model.Score.
Import ListNotations.

(** A Python callable as the class uses it: with one argument f(x), or with two, f(x,t).
    A wrong number of arguments, or any exception it raises, is an [Err]. *)
Record callable (T : Type) := { call1 : mat T -> res (mat T); call2 : mat T -> T -> res (mat T) }.
Arguments call1 {T}. Arguments call2 {T}.

(** constructor arguments (156) *)
Record params (T : Type) := {
  p_t1 : T; p_t2 : T; p_y1 : list T; p_y2 : list T;
  p_f : callable T; p_g : mat T;               (* g: scalar = 1 x 1 *)
  p_N : nat; p_M : nat;
  p_reweight : bool; p_U : option (callable T);
  p_dens_est : string; p_reject : bool; p_kern : string;
  p_f_true : option (callable T); p_brown : bool; p_det : bool }.
Arguments p_t1 {T}. Arguments p_t2 {T}. Arguments p_y1 {T}. Arguments p_y2 {T}. Arguments p_f {T}.
Arguments p_g {T}. Arguments p_N {T}. Arguments p_M {T}. Arguments p_reweight {T}. Arguments p_U {T}.
Arguments p_dens_est {T}. Arguments p_reject {T}. Arguments p_kern {T}. Arguments p_f_true {T}.
Arguments p_brown {T}. Arguments p_det {T}.

(** the attributes of a constructed object that are read later *)
Record obj (T : Type) := {
  o_par : params T; o_kern : string; o_grid : list T; o_Z : arr3 T; o_B : arr3 T; o_Ztr : option (arr3 T) }.
Arguments o_par {T}. Arguments o_kern {T}. Arguments o_grid {T}. Arguments o_Z {T}. Arguments o_B {T}.
Arguments o_Ztr {T}.

Section DPFC.
  Context {T S : Type} {O : NumOps T} (E : Ext T S).

  (** self.dt = 0.001 (181) *)
  Definition dt : T := nmilli.

  (** np.arange(start, stop, delta): ceil((stop-start)/delta) points (none if that is <= 0); the first two are
      start and start+delta, the others continue with the difference of these two (numpy's fill function) *)
  Definition np_arange (start stop delta : T) : list T :=
    let n := Z.to_nat (nceil (ndiv (nsub stop start) delta)) in
    let second := nadd start delta in
    let d := nsub second start in
    map (fun i => match i with
                  | 0 => start
                  | 1 => second
                  | _ => nadd start (nmul (nofnat i) d)
                  end) (seq 0 n).

  (** self.timegrid (189) *)
  Definition timegrid (t1 t2 : T) : list T := np_arange t1 (nadd t2 (ndiv dt ntwo)) dt.

  (** self.kern (166-171) *)
  Definition kern_used (kern : string) : string := if String.eqb kern "periodic" then "RBF"%string else kern.

  (** calling an optional callable: None is not callable *)
  Definition ocall1 (f : option (callable T)) (x : mat T) : res (mat T) :=
    match f with Some c => call1 c x | None => Err TypeError end.
  Definition ocall2 (f : option (callable T)) (x : mat T) (t : T) : res (mat T) :=
    match f with Some c => call2 c x t | None => Err TypeError end.

  (** for di in range(dim): A[di, :, t] = y[di] *)
  Definition pin (dim : nat) (y : list T) (t : Z) (A : arr3 T) : res (arr3 T) :=
    rfold (fun A di => let! v := pyget y (Z.of_nat di) in setrow3 A (Z.of_nat di) t v) (seq 0 dim) A.

  (** [np.min(x[ii,:]), np.max(x[ii,:])]   (299-300, 345-346) *)
  Definition own_bnds (x : mat T) : res (list (T * T)) :=
    rmapM (fun ii => let! lo := lmin (row x ii) in let! hi := lmax (row x ii) in Ok (lo, hi)) (seq 0 (mr x)).

  (** [max(np.min(z), np.min(b)), min(np.max(z), np.max(b))]   (459, 501, 635, 637, 721) *)
  Definition inter_bnd (z b : mat T) (ii : nat) : res (T * T) :=
    let! zlo := lmin (row z ii) in
    let! blo := lmin (row b ii) in
    let! zhi := lmax (row z ii) in
    let! bhi := lmax (row b ii) in
    Ok (pymax zlo blo, pymin zhi bhi).
  Definition inter_bnds (dim : nat) (z b : mat T) : res (list (T * T)) :=
    rmapM (inter_bnd z b) (seq 0 dim).

  (** np.array([np.random.uniform(low=bnd[0], high=bnd[1], size=M) for bnd in bnds])  (303, 355, 466, 503, 677) *)
  Definition sample_box (m : nat) (bnds : list (T * T)) : M S (mat T) :=
    let* rows := mmap (fun b => uniform E (fst b) (snd b) m) bnds in
    ret (mk (length bnds) m (fun i j => nth j (nth i rows []) nzero)).

  (** 2*np.std(x, axis=1) *)
  Definition two_std (x : mat T) : list T := map (nmul ntwo) (std1 x).

  (** np.isnan(sum) or np.isinf(sum) -> a picture of coordinates 0 and 1: IndexError in one dimension
      (347-351, 460-464) *)
  Definition plot_guard (dim : nat) (bnds : list (T * T)) : res unit :=
    if nbad (nsum (flat_map (fun b => [fst b; snd b]) bnds)) then
      (if dim <? 2 then Err IndexError else Ok tt)
    else Ok tt.

  (** out = np.zeros((dim, n)); for ii in range(dim): out[ii, :] = v(ii)    (304-308, 356-359, 455+468-470, 496+505-506) *)
  Definition fill_rows (dim n : nat) (v : nat -> res (list T)) : res (mat T) :=
    rfold (fun A ii => let! r := v ii in setrow A (Z.of_nat ii) (vec r)) (seq 0 dim) (mzeros dim n).

  (** drift of the deterministic particles: f_seperate (315-361) and f_seperate_true (272-310; no plot guard) *)
  Definition f_seperate (kern : string) (m : nat) (g : mat T) (fd : mat T -> T -> res (mat T)) (guard : bool)
    (x : mat T) (t : T) : M S (mat T) :=
    let* bnds := lift (own_bnds x) in
    let* _ := lift (if guard then plot_guard (mr x) bnds else Ok tt) in
    let* Sxx := sample_box m bnds in
    let lnthsc := two_std x in
    let* gpsi := lift (fill_rows (mr x) (mc x) (fun ii =>
        score_function_multid_seperate E (mT x) (mT Sxx) nmilli kern (LVec lnthsc) (Z.of_nat ii + 1))) in
    let* fx := lift (fd x t) in
    lift (let! c := bc2 nmul (smul nhalf (msq g)) gpsi in bc2 nsub fx c).

  (** one Euler-Maruyama step x + dt*f(x, t-dt) + g*noise  (431-432, 392-393) *)
  Definition em_step (g : mat T) (fd : mat T -> T -> res (mat T)) (dim N : nat) (x : mat T) (tt : T) : M S (mat T) :=
    let* fx := lift (fd x (nsub tt dt)) in
    let* a := lift (bc2 nadd x (smul dt fx)) in
    let* noise := normal E (nsqrt dt) dim N in
    lift (let! gn := bc2 nmul g noise in bc2 nadd a gn).

  (** one deterministic step x + dt*drift(x, t-dt)  (434, 395) *)
  Definition det_step (drift : mat T -> T -> M S (mat T)) (x : mat T) (tt : T) : M S (mat T) :=
    let* d := drift x (nsub tt dt) in
    lift (bc2 nadd x (smul dt d)).

  (** W[:,0] = exp(e); W = W/np.sum(W)   (254-255, 439-440) *)
  Definition weights_of (N : nat) (e : mat T) : res (list T) :=
    let! w := assign_shape 1 N (mexp e) in
    let w0 := row w 0 in
    Ok (map (fun x => ndiv x (nsum w0)) w0).

  (** Z[:,:,ti] = Z[:,:,ti] @ reweight_optimal_transport_multidim(Z[:,:,ti].T, W)  (258-260, 444-449) *)
  Definition reweight_slice (N : nat) (e : mat T) (x : mat T) : res (mat T) :=
    let! w := weights_of N e in
    let! Tstar := reweight_optimal_transport_multidim E (mT x) w in
    mmul x Tstar.

  (** forward_sampling_Otto, loop body (419-449) *)
  Definition otto_body (p : params T) (kern : string) (Zf : arr3 T) (it : nat * T) : M S (arr3 T) :=
    let (ti, tt) := it in
    let dim := List.length (p_y1 p) in
    let* Z1 :=
      (if ti =? 0 then
         lift (rfold (fun A di =>                                                      (* 421-424 *)
            let! v := pyget (p_y1 p) (Z.of_nat di) in
            let! A1 := setrow3 A (Z.of_nat di) 0 v in
            if p_brown p then
              let! v2 := pyget (p_y2 p) (Z.of_nat di) in setrow3 A1 (Z.of_nat di) (-1) v2
            else Ok A1) (seq 0 dim) Zf)
       else
         let* x := lift (getsl Zf (Z.of_nat ti - 1)) in
         let* y := (if ti =? 1 then em_step (p_g p) (call2 (p_f p)) dim (p_N p) x tt    (* 431-432 *)
                    else det_step (f_seperate kern (p_M p) (p_g p) (call2 (p_f p)) true) x tt)  (* 434 *)
         in lift (setsl Zf (Z.of_nat ti) y)) in
    if p_reweight p && (0 <? ti) then                                                   (* 436-449 *)
      lift (let! x := getsl Z1 (Z.of_nat ti) in
            let! u := ocall2 (p_U p) x tt in
            let! y := reweight_slice (p_N p) (muls u dt) x in
            setsl Z1 (Z.of_nat ti) y)
    else ret Z1.

  Definition forward_sampling_Otto (p : params T) (kern : string) (grid : list T) (Zf : arr3 T) : M S (arr3 T) :=
    mfold (otto_body p kern) (enumerate grid) Zf.

  (** forward_sampling_Otto_true (384-395) *)
  Definition otto_true_body (p : params T) (kern : string) (Zf : arr3 T) (it : nat * T) : M S (arr3 T) :=
    let (ti, tt) := it in
    let dim := List.length (p_y1 p) in
    if ti =? 0 then lift (pin dim (p_y1 p) 0 Zf)
    else
      let* x := lift (getsl Zf (Z.of_nat ti - 1)) in
      let* y := (if ti =? 1 then em_step (p_g p) (ocall2 (p_f_true p)) dim (p_N p) x tt
                 else det_step (f_seperate kern (p_M p) (p_g p) (ocall2 (p_f_true p)) false) x tt) in
      lift (setsl Zf (Z.of_nat ti) y).
  Definition forward_sampling_Otto_true (p : params T) (kern : string) (grid : list T) (Zf : arr3 T) : M S (arr3 T) :=
    mfold (otto_true_body p kern) (enumerate grid) Zf.

  (** forward_sampling, loop body (239-260): particle by particle, f and U with ONE argument *)
  Definition stoch_particle (p : params T) (ti : nat) (Zf : arr3 T) (i : nat) : M S (arr3 T) :=
    let dim := List.length (p_y1 p) in
    let* x := lift (getsl Zf (Z.of_nat ti - 1)) in
    let xi := vec (col x i) in
    let* fx := lift (call1 (p_f p) xi) in
    let* a := lift (bc2 nadd xi (smul dt fx)) in
    let* noise := normal E (nsqrt dt) 1 dim in
    lift (let! gn := bc2 nmul (p_g p) noise in
          let! y := bc2 nadd a gn in
          setcol3 Zf (Z.of_nat i) (Z.of_nat ti) y).
  Definition stoch_body (p : params T) (Zf : arr3 T) (it : nat * T) : M S (arr3 T) :=
    let (ti, tt) := it in
    if ti =? 0 then
      lift (let! v0 := pyget (p_y1 p) 0 in                                               (* 242-243 *)
            let! A := setrow3 Zf 0 0 v0 in
            let! v1 := pyget (p_y1 p) 1 in
            setrow3 A 1 0 v1)
    else
      let* Z1 := mfold (stoch_particle p ti) (seq 0 (p_N p)) Zf in                        (* 245-249 *)
      if p_reweight p then                                                               (* 252-260 *)
        lift (let! x := getsl Z1 (Z.of_nat ti) in
              let! u := ocall1 (p_U p) x in
              let! y := reweight_slice (p_N p) u x in
              setsl Z1 (Z.of_nat ti) y)
      else ret Z1.
  Definition forward_sampling (p : params T) (grid : list T) (Zf : arr3 T) : M S (arr3 T) :=
    let* Z1 := mfold (stoch_body p) (enumerate grid) Zf in
    lift (pin (List.length (p_y1 p)) (p_y2 p) (-1) Z1).                                       (* 262-263 *)

  (** density_estimation(ti, rev_ti)  (453-473): forward score at the backward particles *)
  Definition density_estimation (p : params T) (kern : string) (Zf B : arr3 T) (rev : Z) : M S (mat T) :=
    let dim := List.length (p_y1 p) in
    let* z := lift (getsl Zf rev) in
    let lnthsc := two_std z in
    let* b := lift (getsl B rev) in
    let* bnds := lift (inter_bnds dim z b) in
    let* _ := lift (plot_guard dim bnds) in
    let* Sxx := sample_box (p_M p) bnds in
    lift (fill_rows dim (p_N p) (fun di =>
      let! fn := score_function_multid_seperate_fun E (mT z) (mT Sxx) nmilli kern (LVec lnthsc) (Z.of_nat di + 1) in
      fn (mT b))).

  (** bw_density_estimation(rev_ti)  (496-510) *)
  Definition bw_density_estimation (p : params T) (kern : string) (Zf B : arr3 T) (rev : Z) : M S (mat T) :=
    let dim := List.length (p_y1 p) in
    let* b := lift (getsl B rev) in
    let lnthsc := two_std b in
    let* z := lift (getsl Zf rev) in
    let* bnds := lift (inter_bnds dim z b) in
    let* Sxx := sample_box (p_M p) bnds in
    lift (fill_rows dim (p_N p) (fun di =>
      score_function_multid_seperate E (mT b) (mT Sxx) nmilli kern (LVec lnthsc) (Z.of_nat di + 1))).

  (** B - f*dt + dt*g**2*grad_ln_ro + g*noise   (541-544) *)
  Definition bw_stoch_step (p : params T) (x : mat T) (t : T) (gro : mat T) : M S (mat T) :=
    let* fx := lift (call2 (p_f p) x t) in
    let* a := lift (bc2 nsub x (muls fx dt)) in
    let* c := lift (bc2 nmul (smul dt (msq (p_g p))) gro) in
    let* ac := lift (bc2 nadd a c) in
    let* noise := normal E (nsqrt dt) (List.length (p_y1 p)) (p_N p) in
    lift (let! gn := bc2 nmul (p_g p) noise in bc2 nadd ac gn).

  (** B - (f - g**2*grad_ln_ro + 0.5*g**2*grad_ln_b)*dt   (547-548) *)
  Definition bw_det_step (p : params T) (x : mat T) (t : T) (gro gb : mat T) : res (mat T) :=
    let! fx := call2 (p_f p) x t in
    let! c1 := bc2 nmul (msq (p_g p)) gro in
    let! d1 := bc2 nsub fx c1 in
    let! c2 := bc2 nmul (smul nhalf (msq (p_g p))) gb in
    let! d2 := bc2 nadd d1 c2 in
    bc2 nsub x (muls d2 dt).

  (** backward_simulation, loop body (529-548) *)
  Definition bw_body (p : params T) (kern : string) (grid : list T) (Zf : arr3 T) (B : arr3 T) (it : nat * T)
    : M S (arr3 T) :=
    let (ti, tt) := it in
    let dim := List.length (p_y1 p) in
    let k := Z.of_nat (List.length grid) in
    if ti =? 0 then lift (pin dim (p_y2 p) (-1) B)
    else
      let rev := (k - Z.of_nat ti - 1)%Z in
      let* gro := density_estimation p kern Zf B (rev + 1) in
      let* y :=
        (if ((ti =? 1) && p_det p) || negb (p_det p) then
           let* x := lift (getsl B (rev + 1)) in
           let* t := lift (pyget grid (rev + 1)) in
           bw_stoch_step p x t gro
         else
           let* gb := bw_density_estimation p kern Zf B (rev + 1) in
           let* x := lift (getsl B (rev + 1)) in
           let* t := lift (pyget grid (rev + 1)) in
           lift (bw_det_step p x t gro gb)) in
      lift (setsl B rev y).

  Definition backward_simulation (p : params T) (kern : string) (grid : list T) (Zf B : arr3 T) : M S (arr3 T) :=
    let* B1 := mfold (bw_body p kern grid Zf) (enumerate (init grid)) B in
    lift (pin (List.length (p_y1 p)) (p_y1 p) 0 B1).                                            (* 550-551 *)

  (** __init__ (156-221) *)
  Definition construct (p : params T) : M S (obj T) :=
    let dim := List.length (p_y1 p) in
    let kern := kern_used (p_kern p) in
    let grid := timegrid (p_t1 p) (p_t2 p) in
    let zeros := zeros3 dim (p_N p) (List.length grid) in
    let* ZZ :=
      (if p_det p then
         let* Z1 := forward_sampling_Otto p kern grid zeros in
         if p_reweight p && p_brown p then
           let* Zt := forward_sampling_Otto_true p kern grid zeros in ret (Z1, Some Zt)
         else ret (Z1, None)
       else
         let* Z1 := forward_sampling p grid zeros in
         ret (Z1, if p_reweight p && p_brown p then Some zeros else None)) in
    let* B := backward_simulation p kern grid (fst ZZ) zeros in
    ret {| o_par := p; o_kern := kern; o_grid := grid; o_Z := fst ZZ; o_B := B; o_Ztr := snd ZZ |}.

  (** ** Queries *)

  (** the flow used as forward flow by calculate_u: Z, or Ztr when reweight and brown_bridge (634-637, 640-654) *)
  Definition bridged (p : params T) : bool := p_reweight p && p_brown p.

  (** u_t[di] in the Gaussian window (642-654) *)
  Definition gauss_row (gx : mat T) (b z : mat T) (di : nat) : res (list T) :=
    let! x := column gx di in
    let mutb := nmean (row b di) in let stdtb := nstd (row b di) in
    let mutz := nmean (row z di) in let stdtz := nstd (row z di) in
    Ok (map (fun v => nsub (ndiv (nopp (nsub v mutb)) (nsq stdtb))
                           (ndiv (nopp (nsub v mutz)) (nsq stdtz))) (flat x)).

  (** bndsztr for a given di (683-685): only row di is ever written *)
  Definition bndsztr (dim : nat) (zt : mat T) (di : nat) : res (mat T) :=
    let! lo := lmin (row zt di) in
    let! hi := lmax (row zt di) in
    Ok (mk dim 2 (fun i j => if i =? di then (if j =? 0 then lo else hi) else nzero)).

  (** np.clip(grid_x, bndsztr[0], bndsztr[1])  (686) *)
  Definition clip_rows (gx bb : mat T) : res (mat T) :=
    if 2 <=? mr bb then
      let! a := bc2 npmax gx (vec (row bb 0)) in bc2 npmin a (vec (row bb 1))
    else Err IndexError.

  (** calculate_u (602-696) *)
  Definition calculate_u (o : obj T) (gx : mat T) (ti : Z) : M S (mat T) :=
    let p := o_par o in
    let dim := List.length (p_y1 p) in
    let k := Z.of_nat (List.length (o_grid o)) in
    let* b := lift (getsl (o_B o) ti) in
    let ls1 := two_std b in
    let* z0 := lift (getsl (o_Z o) ti) in
    let ls2 := two_std z0 in
    let* fw := lift (if bridged p then
                       match o_Ztr o with Some zt => getsl zt ti | None => Err AttributeError end
                     else Ok z0) in
    let* bnds := lift (inter_bnds dim fw b) in
    if (ti <=? 5)%Z || (k - 5 <=? ti)%Z then
      lift (rfold (fun u di => let! r := gauss_row gx b fw di in setrow u (Z.of_nat di) (vec r))
                  (seq 0 dim) (mzeros (mc gx) (mr gx)))
    else
      let* Sxx := sample_box (p_M p) bnds in
      lift (rfold (fun u di =>
          let! fb := score_function_multid_seperate_fun E (mT b) (mT Sxx) nmilli (o_kern o) (LVec ls1) (Z.of_nat di + 1) in
          let! sb := fb gx in
          let! sf :=
            (if bridged p then
               let! bb := bndsztr dim fw di in
               let! gz := clip_rows gx bb in
               let! ff := score_function_multid_seperate_fun E (mT fw) (mT Sxx) nmilli (o_kern o)
                            (LVec (two_std fw)) (Z.of_nat di + 1) in
               ff gz
             else
               let! ff := score_function_multid_seperate_fun E (mT z0) (mT Sxx) nmilli (o_kern o) (LVec ls2)
                            (Z.of_nat di + 1) in
               ff gx) in
          let! r := bc2 nsub (vec sb) (vec sf) in
          setrow u (Z.of_nat di) r) (seq 0 dim) (mzeros (mc gx) (mr gx))).

  (** check_if_covered (699-726), X a 1-d array *)
  Definition check_if_covered (o : obj T) (X : list T) (ti : Z) : res bool :=
    let dim := List.length (p_y1 (o_par o)) in
    rfold (fun cov ii =>
        let! z := getsl (o_Z o) ti in
        let! b := getsl (o_B o) ti in
        let! bnd := inter_bnd z b ii in
        let! x := pyget X (Z.of_nat ii) in
        Ok (cov && (nleb (fst bnd) x && nleb x (snd bnd)))) (seq 0 dim) true.

  (** ** Sessions: any sequence of queries on one object; each either answers or raises (and is survived) *)
  Inductive query := QU (gx : mat T) (ti : Z) | QC (X : list T) (ti : Z).
  Inductive answer := AU (r : res (mat T)) | AC (r : res bool).
  Definition run_query (o : obj T) (q : query) (s : S) : answer * obj T * S :=
    match q with
    | QU gx ti => let (r, s') := calculate_u o gx ti s in (AU r, o, s')
    | QC X ti => (AC (check_if_covered o X ti), o, s)
    end.
  Fixpoint run_session (o : obj T) (qs : list query) (s : S) : list answer * obj T * S :=
    match qs with
    | [] => ([], o, s)
    | q :: qs' =>
        let '(a, o', s') := run_query o q s in
        let '(as_, o'', s'') := run_session o' qs' s' in (a :: as_, o'', s'')
    end.
End DPFC.
Arguments query : clear implicits.
Arguments answer : clear implicits.
