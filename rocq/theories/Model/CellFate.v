(** The class BRIDGE_ND_reweight and the controlled simulation of
    [NC] = DeterministicParticleFlowControl/data/scripts_for_plots/nonconservative_system_2D/plot_c_elegans_differentiation_2D_systematic.py
    (lines 28-123: the estimator, the same text as score.py's score_function_multid_seperate2; 147-485: the class; 634-676: the simulation).
    The parameters are those of Model/DPFC.v (p_f_true, p_brown, p_det, p_dens_est are not used); the object is an [obj].
    Simplifications: the list W of backward_simulation (line 377) reads the global N of the script, which is defined there, and is not used:
    it is left out; forward_sampling (never called) is left out; so are the attributes ln_roD, BPWE*, finer and all printing. *)
From Coq Require Import String List ZArith Lia Bool.
From Verif Require Import Base.Num Base.Py Base.Arr Model.Ext Model.Score Model.DPFC Model.LimitCycle Model.Examples.
Import ListNotations.

Section CellFate.
  Context {T S : Type} {O : NumOps T} (E : Ext T S).

  (** f_seperate (268-287) *)
  Definition nf_seperate (p : params T) (x : mat T) (t : T) : M S (mat T) :=
    let* bnds := lift (own_bnds x) in
    let* _ := lift (plot_guard (mr x) bnds) in
    let* Sxx := sample_box E (p_M p) bnds in
    let* gpsi := lift (fill_rows (mr x) (mc x) (fun ii =>
        score_function_multid_seperate2 E (mT x) (mT Sxx) nmilli (p_kern p) (LVec (two_std x)) (Z.of_nat ii + 1))) in
    let* fx := lift (call2 (p_f p) x t) in
    lift (let! c := bc2 nmul (smul nhalf (msq (p_g p))) gpsi in bc2 nsub fx c).

  (** forward_sampling_Otto, loop body (293-322); with reweight the name reweight_optimal_transport_multidim is not defined in the script:
      U is called first (a default U=1 is not callable), then NameError *)
  Definition notto_body (p : params T) (Zf : arr3 T) (it : nat * T) : M S (arr3 T) :=
    let (ti, tt) := it in
    let dim := List.length (p_y1 p) in
    let* Z1 :=
      (if ti =? 0 then
         lift (rfold (fun A di =>
            let! v := pyget (p_y1 p) (Z.of_nat di) in
            let! A1 := setrow3 A (Z.of_nat di) 0 v in
            let! v2 := pyget (p_y2 p) (Z.of_nat di) in setrow3 A1 (Z.of_nat di) (-1) v2) (seq 0 dim) Zf)
       else
         let* x := lift (getsl Zf (Z.of_nat ti - 1)) in
         let* y := (if ti =? 1 then em_step E (p_g p) (call2 (p_f p)) dim (p_N p) x tt
                    else det_step (nf_seperate p) x tt) in
         lift (setsl Zf (Z.of_nat ti) y)) in
    if p_reweight p && (0 <? ti) then
      lift (let! x := getsl Z1 (Z.of_nat ti) in
            let! u := ocall1 (p_U p) x in
            let! _ := weights_of (p_N p) (muls u dt) in
            Err NameError)
    else ret Z1.
  Definition nforward (p : params T) (grid : list T) (Zf : arr3 T) : M S (arr3 T) := mfold (notto_body p) (enumerate grid) Zf.

  (** density_estimation(ti, rev_ti) (328-351): the forward flow is read one index EARLIER than the backward one *)
  Definition ndensity (p : params T) (Zf B : arr3 T) (rev_ti : Z) : M S (mat T) :=
    let dim := List.length (p_y1 p) in
    let* z := lift (getsl Zf (rev_ti - 1)) in
    let* b := lift (getsl B rev_ti) in
    let* bnds := lift (inter_bnds dim z b) in
    let* _ := lift (plot_guard dim bnds) in
    let* Sxx := sample_box E (p_M p) bnds in
    lift (fill_rows dim (p_N p) (fun di =>
      let! fn := score_function_multid_seperate2_fun E (mT z) (mT Sxx) nmilli (p_kern p) (LVec (two_std z)) (Z.of_nat di + 1) in
      fn (mT b))).
  (** bw_density_estimation(ti, rev_ti) (354-370) *)
  Definition nbw_density (p : params T) (Zf B : arr3 T) (rev_ti : Z) : M S (mat T) :=
    let dim := List.length (p_y1 p) in
    let* b := lift (getsl B rev_ti) in
    let* z := lift (getsl Zf (rev_ti - 1)) in
    let* bnds := lift (inter_bnds dim z b) in
    let* Sxx := sample_box E (p_M p) bnds in
    lift (fill_rows dim (p_N p) (fun di =>
      score_function_multid_seperate2 E (mT b) (mT Sxx) nmilli (p_kern p) (LVec (two_std b)) (Z.of_nat di + 1))).
  (** backward_simulation (373-401) *)
  Definition nbw_body (p : params T) (grid : list T) (Zf : arr3 T) (B : arr3 T) (it : nat * T) : M S (arr3 T) :=
    let (ti, _) := it in
    let dim := List.length (p_y1 p) in
    if ti =? 0 then lift (pin dim (p_y2 p) (-1) B)
    else
      let rev_ti := (Z.of_nat (List.length grid) - Z.of_nat ti)%Z in
      let* gro := ndensity p Zf B rev_ti in
      let* y :=
        (if ti =? 1 then
           let* x := lift (getsl B rev_ti) in
           let* t := lift (pyget grid rev_ti) in
           bw_stoch_step E p x t gro
         else
           let* gb := nbw_density p Zf B rev_ti in
           let* x := lift (getsl B rev_ti) in
           let* t := lift (pyget grid rev_ti) in
           lift (bw_det_step p x t gro gb)) in
      lift (setsl B (rev_ti - 1) y).
  Definition nbackward (p : params T) (grid : list T) (Zf B : arr3 T) : M S (arr3 T) :=
    let* B1 := mfold (nbw_body p grid Zf) (enumerate (init grid)) B in
    lift (pin (List.length (p_y1 p)) (p_y1 p) 0 B1).

  (** np.delete(A, e, axis=1) *)
  Definition delete1 (A : arr3 T) (e : nat) : arr3 T :=
    Arr3 (a_d A) (a_n A - 1) (a_k A) (map (fun m => mk (mr m) (mc m - 1) (fun i j => get m i (if j <? e then j else j + 1))) (a_s A)).
  (** reject_trajectories (404-423).  The two alternatives of line 413 are the same test of coordinate 0.  Bounds with more than one row make the
      comparison of line 408 ambiguous (ValueError). *)
  Definition nbounds (p : params T) : res (list T * list T) :=
    let! fy := call2 (p_f p) (vec (p_y1 p)) (p_t1 p) in
    let! a := bc2 nadd (vec (p_y1 p)) (muls fy dt) in
    let w := muls (smul (nlit 4 1) (msq (p_g p))) (nsqrt dt) in
    let! fplus := bc2 nadd a w in
    let! fminus := bc2 nsub a w in
    let! _ := (if mr fplus =? 1 then Ok tt else Err ValueError) in
    rfold (fun c i =>
        let! hi := pyget (fst c) (Z.of_nat i) in let! lo := pyget (snd c) (Z.of_nat i) in
        if nltb hi lo then Ok (upd (fst c) i lo, upd (snd c) i hi) else Ok c) (seq 0 2) (row fplus 0, row fminus 0).
  Definition nreject (p : params T) (B : arr3 T) : res (arr3 T) :=
    let! (fplus, fminus) := nbounds p in
    let! b := getsl B 1 in
    let! hi := pyget fplus 0 in let! lo := pyget fminus 0 in
    let! _ := (if 0 <? mr b then Ok tt else Err IndexError) in
    let inside n := nltb (get b 0 n) hi && nltb lo (get b 0 n) in
    let sinx := filter (fun n => negb (inside n) || negb (inside n)) (seq 0 (mc b)) in
    if p_reject p then Ok (fold_left delete1 (rev sinx) B) else Ok B.

  (** __init__ (148-238) *)
  Definition nconstruct (p : params T) : M S (obj T) :=
    let dim := List.length (p_y1 p) in
    let grid := timegrid (p_t1 p) (p_t2 p) in
    let zeros := zeros3 dim (p_N p) (List.length grid) in
    let* Z1 := nforward p grid zeros in
    let* B := nbackward p grid Z1 zeros in
    let* B1 := lift (nreject p B) in
    ret {| o_par := p; o_kern := p_kern p; o_grid := grid; o_Z := Z1; o_B := B1; o_Ztr := None |}.

  (** check_if_covered(X, ti) (461-485) *)
  Definition ncheck_if_covered (o : obj T) (X : list T) (ti : Z) : res bool :=
    rfold (fun cov ii =>
        let! z := getsl (o_Z o) ti in
        let! b := getsl (o_B o) ti in
        let! bnd := inter_bnd z b ii in
        let! x := pyget X (Z.of_nat ii) in
        Ok (cov && (nleb (fst bnd) x && nleb x (snd bnd)))) (seq 0 (List.length (p_y1 (o_par o)))) true.

  (** calculate_u(grid_x, ti) (427-460): grid_x is dim x points; both estimates use the lengthscales of B *)
  Definition ncalculate_u (o : obj T) (gx : mat T) (ti : Z) : M S (mat T) :=
    let p := o_par o in
    let dim := List.length (p_y1 p) in
    let* b := lift (getsl (o_B o) ti) in
    let ls := two_std b in
    let* z := lift (getsl (o_Z o) ti) in
    let* bnds := lift (inter_bnds dim z b) in
    let* Sxx := sample_box E (p_M p) bnds in
    lift (rfold (fun u di =>
        let! fb := score_function_multid_seperate2_fun E (mT b) (mT Sxx) nmilli (o_kern o) (LVec ls) (Z.of_nat di + 1) in
        let! sb := fb (mT gx) in
        let! fz := score_function_multid_seperate2_fun E (mT z) (mT Sxx) nmilli (o_kern o) (LVec ls) (Z.of_nat di + 1) in
        let! sz := fz (mT gx) in
        let! r := bc2 nsub (vec sb) (vec sz) in
        setrow u (Z.of_nat di) r) (seq 0 dim) (mzeros (mr gx) (mc gx))).

  (** the simulation of one repetition (646-671): states as 1-d lists, h = 0.001; gauss(x, i) is grad_log_p_Gauss (Model/Examples.v), used for
      the last four grid points instead of calculate_u *)
  Record fate_sim : Type := { fs_F : list (list T); fs_n : list (list T); fs_u : list (list T) }.
  Definition fs_body (o : obj T) (q : fate T) (g : T) (gauss : mat T -> Z -> res (mat T)) (y1 : list T) (c : fate_sim) (it : nat * T) : M S fate_sim :=
    let (ti, _) := it in
    let size := Z.of_nat (List.length (o_grid o)) in
    if ti =? 0 then
      lift (let! a := setcolumn (fs_F c) 0 y1 in let! b := setcolumn (fs_n c) 0 y1 in Ok {| fs_F := a; fs_n := b; fs_u := fs_u c |})
    else
      let* x := lift (pyget (fs_F c) (Z.of_nat ti - 1)) in
      let* uu := (if (size - 4 <=? Z.of_nat ti)%Z then lift (gauss (mT (vec x)) (size - Z.of_nat ti)%Z)
                  else ncalculate_u o (mT (vec x)) (Z.of_nat ti)) in
      let* us := lift (setcolumn (fs_u c) (Z.of_nat ti) (col uu 0)) in
      let* fx := lift (nc_f q x) in
      let* noise := normal E (nsqrt dt) 1 2 in
      let step x fx (noise : mat T) i := nadd (nadd (nth i x nzero) (nmul dt (nth i fx nzero))) (nmul g (get noise 0 i)) in
      let* F := lift (setcolumn (fs_F c) (Z.of_nat ti)
        (map (fun i => nadd (nadd (nadd (nth i x nzero) (nmul dt (nth i fx nzero))) (nmul (nmul dt (nsq g)) (nth i (col uu 0) nzero))) (nmul g (get noise 0 i))) (seq 0 2))) in
      let* y := lift (pyget (fs_n c) (Z.of_nat ti - 1)) in
      let* fy := lift (nc_f q y) in
      let* noise' := normal E (nsqrt dt) 1 2 in
      let* N := lift (setcolumn (fs_n c) (Z.of_nat ti) (map (step y fy noise') (seq 0 2))) in
      ret {| fs_F := F; fs_n := N; fs_u := us |}.
  Definition fate_simulation (o : obj T) (q : fate T) (g : T) (gauss : mat T -> Z -> res (mat T)) (y1 : list T) : M S fate_sim :=
    let z := repeat [nzero; nzero] (List.length (o_grid o)) in
    mfold (fs_body o q g gauss y1) (enumerate (o_grid o)) {| fs_F := z; fs_n := z; fs_u := z |}.
End CellFate.
Arguments fate_sim : clear implicits.
