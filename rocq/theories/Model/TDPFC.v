(** class torched_DPFC of DeterministicParticleFlowControl.py, lines 730-1507 (line numbers refer to that file).
    Not modelled: devices, dtypes other than float64, autograd, logging and timing. *)
From Coq Require Import String List ZArith Lia Bool.
From Verif Require Import Base.Num Base.Py Base.Arr Model.Ext Model.Cdist Model.Score Model.ScoreTorch Model.DPFC.
Import ListNotations.

(** what kind of object is passed as y1 *)
Inductive ykind := IsTensor | IsNdarray.

Section TDPFC.
  Context {T S : Type} {O : NumOps T} (E : Ext T S).

  Definition tsetsl (A : arr3 T) (t : Z) (src : mat T) : res (arr3 T) := tor (setsl A t src).

  (** torch.arange(start, end, step): RuntimeError unless start <= end; ceil((end-start)/step) values start + i*step *)
  Definition t_arange (start stop delta : T) : res (list T) :=
    if nleb start stop then
      Ok (map (fun i => nadd start (nmul (nofnat i) delta))
              (seq 0 (Z.to_nat (nceil (ndiv (nsub stop start) delta)))))
    else Err RuntimeError.
  (** self.timegrid (855-856) *)
  Definition t_timegrid (t1 t2 : T) : res (list T) := t_arange t1 (nadd t2 (ndiv dt ntwo)) dt.

  (** 2*torch.std(x, dim=1) *)
  Definition two_tstd (x : mat T) : list T := map (nmul ntwo) (tstd1 x).

  (** torch.distributions.Uniform(low, high).sample([M]): M x dim; ValueError unless low < high everywhere *)
  Definition t_sample_box (m : nat) (bnds : list (T * T)) : M S (mat T) := fun s =>
    if forallb (fun b => nltb (fst b) (snd b)) bnds then
      let (h, s') := x_tuniform E s (map fst bnds) (map snd bnds) m in
      (Ok (mk m (length bnds) h), s')
    else (Err ValueError, s).

  (** torch.min / torch.max of an empty row: RuntimeError *)
  Definition t_own_bnds (x : mat T) : res (list (T * T)) := tor (own_bnds x).

  (** [min(min z, min b), max(max z, max b)]  (1176-1177, 1233-1234, 1381-1386, 1500-1501) *)
  Definition hull_bnd (z b : mat T) (ii : nat) : res (T * T) :=
    let! zlo := tor (lmin (row z ii)) in
    let! blo := tor (lmin (row b ii)) in
    let! zhi := tor (lmax (row z ii)) in
    let! bhi := tor (lmax (row b ii)) in
    Ok (pymin zlo blo, pymax zhi bhi).
  Definition hull_bnds (dim : nat) (z b : mat T) : res (list (T * T)) := rmapM (hull_bnd z b) (seq 0 dim).

  (** density_estimation's box (1171-1177): the range of Z alone when B has no spread *)
  Definition dens_bnd (z b : mat T) (ii : nat) : res (T * T) :=
    let! blo := tor (lmin (row b ii)) in
    let! bhi := tor (lmax (row b ii)) in
    if neqb blo bhi then
      let! zlo := tor (lmin (row z ii)) in let! zhi := tor (lmax (row z ii)) in Ok (zlo, zhi)
    else hull_bnd z b ii.

  (** f_seperate (998-1055): default kernel argument *)
  Definition t_f_seperate (m : nat) (g : mat T) (fd : mat T -> T -> res (mat T)) (x : mat T) (t : T) : M S (mat T) :=
    let* bnds := lift (t_own_bnds x) in
    let* Sxx := t_sample_box m bnds in
    let lnthsc := two_tstd x in
    let* gpsi := lift (torched_score_function_multid_seperate_all_dims E (mT x) Sxx (TTens1 lnthsc) nmilli "RBF") in
    let* fx := lift (fd x t) in
    lift (let! c := tbc2 nmul (smul nhalf (msq g)) (mT gpsi) in tbc2 nsub fx c).

  (** f_seperate_true (947-993): inducing points TRANSPOSED (986), result not transposed (993) *)
  Definition t_f_seperate_true (kern : string) (m : nat) (g : mat T) (fd : mat T -> T -> res (mat T))
    (x : mat T) (t : T) : M S (mat T) :=
    let* bnds := lift (t_own_bnds x) in
    let* Sxx := t_sample_box m bnds in
    let lnthsc := two_tstd x in
    let* gpsi := lift (torched_score_function_multid_seperate_all_dims E (mT x) (mT Sxx) (TTens1 lnthsc) nmilli kern) in
    let* fx := lift (fd x t) in
    lift (let! c := tbc2 nmul (smul nhalf (msq g)) gpsi in tbc2 nsub fx c).

  (** x + dt*f(x, t-dt) + g*noise  (917-920, 1086-1088, 1127-1135) *)
  Definition t_em_step (g : mat T) (fd : mat T -> T -> res (mat T)) (dim N : nat) (x : mat T) (tt : T) : M S (mat T) :=
    let* fx := lift (fd x (nsub tt dt)) in
    let* a := lift (tbc2 nadd x (smul dt fx)) in
    let* noise := normal E (nsqrt dt) dim N in
    lift (let! gn := tbc2 nmul g noise in tbc2 nadd a gn).

  (** x + dt*drift(x, t-dt)  (1090-1091, 1137-1138) *)
  Definition t_det_step (drift : mat T -> T -> M S (mat T)) (x : mat T) (tt : T) : M S (mat T) :=
    let* d := drift x (nsub tt dt) in
    lift (tbc2 nadd x (smul dt d)).

  (** M = ot.dist(x.T, x.T); M /= M.max()   (929-930, 1148-1149) *)
  Definition t_cost (x : mat T) : res (mat T) :=
    let! c := ot_dist (mT x) (mT x) in
    let! mx := tor (lmax (flat_map (row c) (seq 0 (mr c)))) in
    Ok (divs c mx).
  (** (N*x) @ ot.emd(W[:,0], ones/N, M)   (924-935, 1143-1154) *)
  Definition t_reweight_slice (N : nat) (e x : mat T) : res (mat T) :=
    let! w := tor (weights_of N e) in
    let! c := t_cost x in
    let b := repeat (ndiv none1 (nofnat N)) N in
    let T2 := mk N N (x_otemd E w b c) in
    tmmul (smul (nofnat N) x) T2.

  (** forward_sampling_Otto (1115-1154) *)
  Definition t_otto_body (p : params T) (Zf : arr3 T) (it : nat * T) : M S (arr3 T) :=
    let (ti, tt) := it in
    let dim := List.length (p_y1 p) in
    let* Z1 :=
      (if ti =? 0 then
         lift (rfold (fun A di =>
            let! v := pyget (p_y1 p) (Z.of_nat di) in
            let! A1 := setrow3 A (Z.of_nat di) 0 v in
            if p_brown p then
              let! v2 := pyget (p_y2 p) (Z.of_nat di) in setrow3 A1 (Z.of_nat di) (-1) v2
            else Ok A1) (seq 0 dim) Zf)
       else
         let* x := lift (getsl Zf (Z.of_nat ti - 1)) in
         let* y := (if ti =? 1 then t_em_step (p_g p) (call2 (p_f p)) dim (p_N p) x tt
                    else t_det_step (t_f_seperate (p_M p) (p_g p) (call2 (p_f p))) x tt) in
         lift (tsetsl Zf (Z.of_nat ti) y)) in
    if p_reweight p && (0 <? ti) then
      lift (let! x := getsl Z1 (Z.of_nat ti) in
            let! u := ocall2 (p_U p) x tt in
            let! y := t_reweight_slice (p_N p) (muls u dt) x in
            tsetsl Z1 (Z.of_nat ti) y)
    else ret Z1.
  Definition t_forward_sampling_Otto (p : params T) (grid : list T) (Zf : arr3 T) : M S (arr3 T) :=
    mfold (t_otto_body p) (enumerate grid) Zf.

  (** forward_sampling_Otto_true (1078-1091) *)
  Definition t_otto_true_body (p : params T) (kern : string) (Zf : arr3 T) (it : nat * T) : M S (arr3 T) :=
    let (ti, tt) := it in
    let dim := List.length (p_y1 p) in
    if ti =? 0 then lift (pin dim (p_y1 p) 0 Zf)
    else
      let* x := lift (getsl Zf (Z.of_nat ti - 1)) in
      let* y := (if ti =? 1 then t_em_step (p_g p) (ocall2 (p_f_true p)) dim (p_N p) x tt
                 else t_det_step (t_f_seperate_true kern (p_M p) (p_g p) (ocall2 (p_f_true p))) x tt) in
      lift (tsetsl Zf (Z.of_nat ti) y).
  Definition t_forward_sampling_Otto_true (p : params T) (kern : string) (grid : list T) (Zf : arr3 T) : M S (arr3 T) :=
    mfold (t_otto_true_body p kern) (enumerate grid) Zf.

  (** forward_sampling (912-935): all particles at once, f with two arguments, U with one, no end pin *)
  Definition t_stoch_body (p : params T) (Zf : arr3 T) (it : nat * T) : M S (arr3 T) :=
    let (ti, tt) := it in
    if ti =? 0 then
      lift (let! v0 := pyget (p_y1 p) 0 in
            let! A := setrow3 Zf 0 0 v0 in
            let! v1 := pyget (p_y1 p) 1 in
            setrow3 A 1 0 v1)
    else
      let* x := lift (getsl Zf (Z.of_nat ti - 1)) in
      let* y := t_em_step (p_g p) (call2 (p_f p)) (List.length (p_y1 p)) (p_N p) x tt in
      let* Z1 := lift (tsetsl Zf (Z.of_nat ti) y) in
      if p_reweight p then
        lift (let! x1 := getsl Z1 (Z.of_nat ti) in
              let! u := ocall1 (p_U p) x1 in
              let! y1 := t_reweight_slice (p_N p) u x1 in
              tsetsl Z1 (Z.of_nat ti) y1)
      else ret Z1.
  Definition t_forward_sampling (p : params T) (grid : list T) (Zf : arr3 T) : M S (arr3 T) :=
    mfold (t_stoch_body p) (enumerate grid) Zf.

  (** density_estimation (1164-1204) *)
  Definition t_density_estimation (p : params T) (kern : string) (Zf B : arr3 T) (rev : Z) : M S (mat T) :=
    let dim := List.length (p_y1 p) in
    let* z := lift (getsl Zf rev) in
    let lnthsc := two_tstd z in
    let* b := lift (getsl B rev) in
    let* bnds := lift (rmapM (dens_bnd z b) (seq 0 dim)) in
    let* Sxx := t_sample_box (p_M p) bnds in
    lift (let! fn := torched_score_function_multid_seperate_all_dims_fun E (mT z) Sxx (TTens1 lnthsc) nmilli kern in
          rmap mT (fn true (mT b))).

  (** bw_density_estimation (1207-1248) *)
  Definition t_bw_density_estimation (p : params T) (kern : string) (Zf B : arr3 T) (rev : Z) : M S (mat T) :=
    let dim := List.length (p_y1 p) in
    let* b := lift (getsl B rev) in
    let lnthsc := two_tstd b in
    let* z := lift (getsl Zf rev) in
    let* bnds := lift (hull_bnds dim z b) in
    let* Sxx := t_sample_box (p_M p) bnds in
    lift (torched_score_function_multid_seperate_all_dims E (mT b) Sxx (TTens1 lnthsc) nmilli kern).

  (** 1280-1284 *)
  Definition t_bw_stoch_step (p : params T) (x : mat T) (t : T) (gro : mat T) : M S (mat T) :=
    let* fx := lift (call2 (p_f p) x t) in
    let* a := lift (tbc2 nsub x (muls fx dt)) in
    let* c := lift (tbc2 nmul (smul dt (msq (p_g p))) gro) in
    let* ac := lift (tbc2 nadd a c) in
    let* noise := normal E (nsqrt dt) (List.length (p_y1 p)) (p_N p) in
    lift (let! gn := tbc2 nmul (p_g p) noise in tbc2 nadd ac gn).
  (** 1289-1291 *)
  Definition t_bw_det_step (p : params T) (x : mat T) (t : T) (gro gb : mat T) : res (mat T) :=
    let! fx := call2 (p_f p) x t in
    let! c1 := tbc2 nmul (msq (p_g p)) gro in
    let! d1 := tbc2 nsub fx c1 in
    let! c2 := tbc2 nmul (smul nhalf (msq (p_g p))) gb in
    let! d2 := tbc2 nadd d1 c2 in
    tbc2 nsub x (muls d2 dt).

  (** backward_simulation (1267-1294) *)
  Definition t_bw_body (p : params T) (kern : string) (grid : list T) (Zf : arr3 T) (B : arr3 T) (it : nat * T)
    : M S (arr3 T) :=
    let (ti, tt) := it in
    let dim := List.length (p_y1 p) in
    let k := Z.of_nat (List.length grid) in
    if ti =? 0 then lift (pin dim (p_y2 p) (-1) B)
    else
      let rev := (k - Z.of_nat ti - 1)%Z in
      let* gro := t_density_estimation p kern Zf B (rev + 1) in
      let* y :=
        (if ((ti =? 1) && p_det p) || negb (p_det p) then
           let* x := lift (getsl B (rev + 1)) in
           let* t := lift (pyget grid (rev + 1)) in
           t_bw_stoch_step p x t gro
         else
           let* gb := t_bw_density_estimation p kern Zf B (rev + 1) in
           let* x := lift (getsl B (rev + 1)) in
           let* t := lift (pyget grid (rev + 1)) in
           lift (t_bw_det_step p x t gro (mT gb))) in
      lift (tsetsl B rev y).
  Definition t_backward_simulation (p : params T) (kern : string) (grid : list T) (Zf B : arr3 T) : M S (arr3 T) :=
    let* B1 := mfold (t_bw_body p kern grid Zf) (enumerate (init grid)) B in
    lift (pin (List.length (p_y1 p)) (p_y1 p) 0 B1).

  (** y1.size(dim=0) (818): a method of a tensor; of an ndarray, [size] is the number of elements, an int, and calling
      an int is a TypeError.  The isinstance test of 821-826 comes after this line. *)
  Definition size_dim0 (y1_kind : ykind) (y1 : list T) : res nat :=
    match y1_kind with
    | IsTensor => Ok (List.length y1)
    | IsNdarray => Err TypeError
    end.
  (** __init__ (811-893) *)
  Definition t_construct (y1_kind : ykind) (p : params T) : M S (obj T) :=
    let* dim := lift (size_dim0 y1_kind (p_y1 p)) in
    let kern := kern_used (p_kern p) in
    let* grid := lift (t_timegrid (p_t1 p) (p_t2 p)) in
    let zeros := zeros3 dim (p_N p) (List.length grid) in
    let* ZZ :=
      (if p_det p then
         let* Z1 := t_forward_sampling_Otto p grid zeros in
         if p_reweight p && p_brown p then
           let* Zt := t_forward_sampling_Otto_true p kern grid zeros in ret (Z1, Some Zt)
         else ret (Z1, None)
       else
         let* Z1 := t_forward_sampling p grid zeros in
         ret (Z1, if p_reweight p && p_brown p then Some zeros else None)) in
    let* B := t_backward_simulation p kern grid (fst ZZ) zeros in
    ret {| o_par := p; o_kern := kern; o_grid := grid; o_Z := fst ZZ; o_B := B; o_Ztr := snd ZZ |}.

  (** calculate_u, Gaussian window rows (1391-1403) *)
  Definition t_gauss_row (gx : mat T) (b z : mat T) (di : nat) : res (list T) :=
    let! x := column gx di in
    let mutb := nmean (row b di) in let stdtb := tstd (row b di) in
    let mutz := nmean (row z di) in let stdtz := tstd (row z di) in
    Ok (map (fun v => nsub (ndiv (nopp (nsub v mutb)) (nsq stdtb))
                           (ndiv (nopp (nsub v mutz)) (nsq stdtz))) (flat x)).

  (** calculate_u (1345-1474); grid_x a tensor *)
  Definition t_calculate_u (o : obj T) (gx : mat T) (ti : Z) : M S (mat T) :=
    let p := o_par o in
    let dim := List.length (p_y1 p) in
    let k := Z.of_nat (List.length (o_grid o)) in
    let* b := lift (getsl (o_B o) ti) in
    let ls1 := two_tstd b in
    let* z0 := lift (getsl (o_Z o) ti) in
    let ls2 := two_tstd z0 in
    let* fw := lift (if bridged p then
                       match o_Ztr o with Some zt => getsl zt ti | None => Err AttributeError end
                     else Ok z0) in
    let* bnds := lift (hull_bnds dim fw b) in
    if (ti <=? 5)%Z || (k - 5 <=? ti)%Z then
      lift (rfold (fun u di => let! r := t_gauss_row gx b fw di in tor (setrow u (Z.of_nat di) (vec r)))
                  (seq 0 dim) (mzeros (mc gx) (mr gx)))
    else
      let* Sxx := t_sample_box (p_M p) bnds in
      lift (
        let! fb := torched_score_function_multid_seperate_all_dims_fun E (mT b) Sxx (TTens1 ls1) nmilli (o_kern o) in
        let! sb := fb true gx in
        let! ff := torched_score_function_multid_seperate_all_dims_fun E (mT fw) Sxx
                     (TTens1 (if bridged p then two_tstd fw else ls2)) nmilli (o_kern o) in
        let! sf := ff true gx in
        tbc2 nsub (mT sb) (mT sf)).

  (** check_if_covered (1477-1507) *)
  Definition t_check_if_covered (o : obj T) (X : list T) (ti : Z) : res bool :=
    let dim := List.length (p_y1 (o_par o)) in
    rfold (fun cov ii =>
        let! z := getsl (o_Z o) ti in
        let! b := getsl (o_B o) ti in
        let! bnd := hull_bnd z b ii in
        let! x := pyget X (Z.of_nat ii) in
        Ok (cov && (nleb (fst bnd) x && nleb x (snd bnd)))) (seq 0 dim) true.
End TDPFC.
