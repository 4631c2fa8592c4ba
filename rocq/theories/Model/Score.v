(** The numpy score estimators:
    score_estimators/score_function_estimators.py and score_estimators/score.py.
    Arrays X (samples, N x dim) and Z (inducing points, M x dim) are 2-d; [which_dim] is the Python int. *)
From Coq Require Import String List ZArith Lia Bool.
From Verif Require Import Base.Num Base.Py Base.Arr Model.Ext Model.Cdist.
Import ListNotations.

Section Score.
  Context {T S : Type} {O : NumOps T} (E : Ext T S).

  (** the argument l: a number, or a list/tuple/ndarray of numbers (score_function_estimators.py:242) *)
  Inductive lscale := LScal (l : T) | LVec (l : list T).

  (** x[:, ii].reshape(-1,1) *)
  Definition column (x : mat T) (ii : nat) : res (mat T) :=
    if ii <? mc x then Ok (mk (mr x) 1 (fun i _ => get x i ii)) else Err IndexError.
  (** x[:, ii:ii+1] : a slice, empty past the end *)
  Definition colslice (x : mat T) (ii : nat) : mat T :=
    if ii <? mc x then mk (mr x) 1 (fun i _ => get x i ii) else mk (mr x) 0 (fun _ _ => nzero).

  (** np.exp(-tempi/(2*l*l)), elementwise   (lines 149, 154, 160, 163, 278, 286, ...) *)
  Definition rbf_of_sq (l : T) (tempi : mat T) : mat T :=
    mmap1 (fun v => nexp (ndiv (nopp v) (nmul (nmul ntwo l) l))) tempi.

  (** ** Kernel matrices K(x,y,l,multil) *)

  (** 141-154: per-dimension lengthscales go through scipy cdist on slices, a scalar one through my_cdist *)
  Definition K_sep (x y : mat T) (l : lscale) : res (mat T) :=
    match l with
    | LVec ls =>
        rfold (fun acc '(ii, li) =>
                 let! tempi := cdist_sq (colslice x ii) (colslice y ii) in
                 bc2 nmul acc (rbf_of_sq li tempi))
              (enumerate ls) (mones (mr x) (mr y))
    | LScal l0 =>
        let! tempi := my_cdist x y (mzeros (mr x) (mr y)) "sqeuclidean" in
        Ok (rbf_of_sq l0 tempi)
    end.

  (** 355-369: both branches through my_cdist, on columns *)
  Definition K_all (x y : mat T) (l : lscale) : res (mat T) :=
    match l with
    | LVec ls =>
        rfold (fun acc '(ii, li) =>
                 let! xi := column x ii in
                 let! yi := column y ii in
                 let! tempi := my_cdist xi yi (mzeros (mr x) (mr y)) "sqeuclidean" in
                 bc2 nmul acc (rbf_of_sq li tempi))
              (enumerate ls) (mones (mr x) (mr y))
    | LScal l0 =>
        let! tempi := my_cdist x y (mzeros (mr x) (mr y)) "sqeuclidean" in
        Ok (rbf_of_sq l0 tempi)
    end.

  (** 553-560 and score.py:36-43: scipy cdist on columns *)
  Definition K_old (x y : mat T) (l : lscale) : res (mat T) :=
    match l with
    | LVec ls =>
        rfold (fun acc '(ii, li) =>
                 let! xi := column x ii in
                 let! yi := column y ii in
                 let! tempi := cdist_sq xi yi in
                 bc2 nmul acc (rbf_of_sq li tempi))
              (enumerate ls) (mones (mr x) (mr y))
    | LScal l0 => let! tempi := cdist_sq x y in Ok (rbf_of_sq l0 tempi)
    end.

  (** np.exp(-2 * (np.sin(c/2)**2) / (l*l)), elementwise  (217, 224, 288) *)
  Definition per_of_l1 (l : T) (c : mat T) : mat T :=
    mmap1 (fun v => nexp (ndiv (nmul (nlit (-2) 1) (nsq (nsin (ndiv v ntwo)))) (nmul l l))) c.

  (** 207-225 (and 410-427): periodic kernel; note [return -res] in the vector branch (218, 420) *)
  Definition K_per (x y : mat T) (l : lscale) : res (mat T) :=
    match l with
    | LVec ls =>
        let! r := rfold (fun acc '(ii, li) =>
                 let! xi := column x ii in
                 let! yi := column y ii in
                 let! c := cdist_l1 xi yi in
                 bc2 nmul acc (per_of_l1 li c))
              (enumerate ls) (mones (mr x) (mr y)) in
        Ok (mopp r)
    | LScal l0 => let! c := cdist_l1 x y in Ok (per_of_l1 l0 c)
    end.

  (** diffs[:,:,ii] where diffs = x[:,None]-y   (168+172, 229+235, 375+380, 564+568) *)
  Definition diffs_at (x y : mat T) (ii : Z) : res (mat T) :=
    if bok (mc x) (mc y) then
      match pyidx (bdim (mc x) (mc y)) ii with
      | Some k => Ok (mk (mr x) (mr y) (fun i j => nsub (get x i (bidx (mc x) k)) (get y j (bidx (mc y) k))))
      | None => Err IndexError
      end
    else Err ValueError.

  (** l[ii]*l[ii] resp. l*l *)
  Definition lsq_at (l : lscale) (ii : Z) : res T :=
    match l with LVec ls => let! v := pyget ls ii in Ok (nmul v v) | LScal v => Ok (nmul v v) end.

  (** 166-175, 386-397, 562-571, score.py:47-58: np.multiply(diffs[:,:,ii], K(x,y,l))/(l[ii]*l[ii]) *)
  Definition grdx_K (K : mat T -> mat T -> lscale -> res (mat T)) (x y : mat T) (l : lscale) (which_dim : Z)
    : res (mat T) :=
    let ii := (which_dim - 1)%Z in
    let! d := diffs_at x y ii in
    let! k := K x y l in
    let! p := bc2 nmul d k in
    let! l2 := lsq_at l ii in
    Ok (divs p l2).

  (** 227-238: gradient used with the periodic kernel *)
  Definition grdx_K_per (x y : mat T) (l : lscale) (which_dim : Z) : res (mat T) :=
    let ii := (which_dim - 1)%Z in
    let half v := ndiv (nabs v) ntwo in
    let! d := diffs_at x y ii in
    match l with
    | LVec _ =>
        let! k := K_per x y l in
        let! p1 := bc2 nmul (smul (nlit (-2) 1) k) d in
        let! p2 := bc2 nmul p1 (mmap1 (fun v => nsin (half v)) d) in
        let! p3 := bc2 nmul p2 (mmap1 (fun v => ncos (half v)) d) in
        let! l2 := lsq_at l ii in
        let! r := bc2 ndiv p3 (mmap1 (fun v => nmul l2 (nabs v)) d) in
        Ok (mopp r)
    | LScal _ =>
        let! p1 := bc2 nmul (smul (nlit (-2) 1) d) (mmap1 (fun v => nsin (half v)) d) in
        let! k := K_per x y l in
        let! p2 := bc2 nmul p1 k in
        let! p3 := bc2 nmul p2 (mmap1 (fun v => ncos (half v)) d) in
        let! l2 := lsq_at l ii in
        let! r := bc2 ndiv p3 (mmap1 (fun v => nmul l2 (nabs v)) d) in
        Ok (mopp r)
    end.

  (** 372-383: the gradients for all dimensions of x, as an (N, M, dim) array *)
  Definition grdx_K_all (K : mat T -> mat T -> lscale -> res (mat T)) (x y : mat T) (l : lscale) : res (arr3 T) :=
    if bok (mc x) (mc y) then
      let! sl := rmapM (fun ii => grdx_K K x y l (Z.of_nat ii + 1)) (seq 0 (mc x)) in
      Ok (Arr3 (mr x) (mr y) (mc x) sl)
    else Err ValueError.

  (** np.sum(G, axis=0) of an N x M matrix, as an M x 1 column *)
  Definition sum0 (G : mat T) : mat T := mk (mc G) 1 (fun j _ => nsum (col G j)).
  (** np.sum(G, axis=0) of an (N, M, dim) array: M x dim *)
  Definition sum0_3 (G : arr3 T) : mat T :=
    mk (a_n G) (a_k G) (fun j d => nsum (col (slice G d) j)).

  (** Ksinv = np.linalg.inv(Ks + 1e-3*np.eye(M))   (254, 266, 454, 470, 595, 603) *)
  Definition reg_inv (Ks : mat T) (M : nat) : res (mat T) :=
    let! a := bc2 nadd Ks (smul nmilli (eye M)) in linalg_inv E a.

  (** np.linalg.inv(C*np.eye(M) + Ksinv @ A + 1e-3*np.eye(M))   (273, 291, 484, 505, 609, 619) *)
  Definition inner_inv (C : T) (M : nat) (Ksinv A : mat T) : res (mat T) :=
    let! ka := mmul Ksinv A in
    let! a1 := bc2 nadd (smul C (eye M)) ka in
    let! a2 := bc2 nadd a1 (smul nmilli (eye M)) in
    linalg_inv E a2.

  (** -K_xz @ inner @ Ksinv @ sumgradx_K   (273, 484, 609; score.py:103) *)
  Definition eval_at_samples (C : T) (M : nat) (K_xz Ksinv A s : mat T) : res (mat T) :=
    let! inn := inner_inv C M Ksinv A in
    let! a := mmul (mopp K_xz) inn in
    let! b := mmul a Ksinv in
    mmul b s.

  (** lambda x: K_sz(x) @ (-inner) @ Ksinv @ sumgradx_K   (291, 505, 619; score.py:115) *)
  Definition eval_fun (K_sz : mat T -> res (mat T)) (C : T) (M : nat) (Ksinv A s : mat T) (x : mat T)
    : res (mat T) :=
    let! k := K_sz x in
    let! inn := inner_inv C M Ksinv A in
    let! a := mmul k (mopp inn) in
    let! b := mmul a Ksinv in
    mmul b s.

  (** lambda x: reduce(np.multiply, [exp(-cdist(x[:,iii], Z[:,iii])/(2*l[iii]*l[iii])) for iii in range(x.shape[1])])
      (278, 493, 614) *)
  Definition Ksz_vec (Zp : mat T) (ls : list T) (x : mat T) : res (mat T) :=
    let! fs := rmapM (fun iii =>
        let! xi := column x iii in
        let! zi := column Zp iii in
        let! c := cdist_sq xi zi in
        let! li := pyget ls (Z.of_nat iii) in
        Ok (rbf_of_sq li c)) (seq 0 (mc x)) in
    match fs with
    | [] => Err TypeError       (* reduce() of empty iterable with no initial value *)
    | f0 :: fr => rfold (fun acc f => bc2 nmul acc f) fr f0
    end.

  (** lambda x: np.exp(-cdist(x, Z,'sqeuclidean')/(2*l*l))   (286, 500, 617) *)
  Definition Ksz_scal (Zp : mat T) (l : T) (x : mat T) : res (mat T) :=
    let! c := cdist_sq x Zp in Ok (rbf_of_sq l c).

  Definition Ksz (Zp : mat T) (l : lscale) (x : mat T) : res (mat T) :=
    match l with LVec ls => Ksz_vec Zp ls x | LScal l0 => Ksz_scal Zp l0 x end.

  (** 282, 288: the function-output kernel in the periodic case *)
  Definition Ksz_per (Zp : mat T) (l : lscale) (x : mat T) : res (mat T) :=
    match l with
    | LVec ls =>
        let part dist ii :=
          let! xi := column x ii in
          let! zi := column Zp ii in
          let! c := dist xi zi in
          let! li := pyget ls (Z.of_nat ii) in
          Ok (mmap1 (fun v => nexp (nmul (nlit (-2) 1) (nsin (ndiv v (nmul li li))))) c) in
        let! a := part cdist_l2 0 in
        let! b := part cdist_sq 1 in
        bc2 nmul a b
    | LScal l0 => let! c := cdist_l1 x Zp in Ok (per_of_l1 l0 c)
    end.

  (** score.py:109 : only the first two coordinates *)
  Definition Ksz_two (Zp : mat T) (l : lscale) (x : mat T) : res (mat T) :=
    match l with
    | LVec ls =>
        let part ii :=
          let! xi := column x ii in
          let! zi := column Zp ii in
          let! c := cdist_sq xi zi in
          let! li := pyget ls (Z.of_nat ii) in
          Ok (rbf_of_sq li c) in
        let! a := part 0 in
        let! b := part 1 in
        bc2 nmul a b
    | LScal l0 => Ksz_scal Zp l0 x
    end.

  (** which kernel functions are bound after the if/elif on kern (123/199): RBF, periodic, or none at all *)
  Definition K_of (kern : string) : mat T -> mat T -> lscale -> res (mat T) :=
    if String.eqb kern "RBF" then K_sep
    else if String.eqb kern "periodic" then K_per
    else fun _ _ _ => Err UnboundLocalError.
  Definition grdx_of (kern : string) : mat T -> mat T -> lscale -> Z -> res (mat T) :=
    if String.eqb kern "RBF" then grdx_K K_sep
    else if String.eqb kern "periodic" then grdx_K_per
    else fun _ _ _ _ => Err UnboundLocalError.
  Definition Ksz_of (kern : string) : mat T -> lscale -> mat T -> res (mat T) :=
    if String.eqb kern "RBF" then Ksz
    else if String.eqb kern "periodic" then Ksz_per
    else fun _ _ _ => Err UnboundLocalError.

  (** the part common to both outputs (242-270): K_xz, Ksinv, A, summed gradient *)
  Definition prep (K : mat T -> mat T -> lscale -> res (mat T))
                  (grd : mat T -> mat T -> lscale -> Z -> res (mat T))
                  (X Zp : mat T) (l : lscale) (which_dim : Z) : res (mat T * mat T * mat T * mat T) :=
    let! K_xz := K X Zp l in
    let! Ks := K Zp Zp l in
    let! Ksinv := reg_inv Ks (mr Zp) in
    let! A := mmul (mT K_xz) K_xz in
    let! G := grd X Zp l which_dim in
    Ok (K_xz, Ksinv, A, sum0 (mopp G)).

  (** an M x 1 result as the 1-d array it is in numpy *)
  Definition flat (A : mat T) : list T := col A 0.

  (** score_function_multid_seperate(X, Z, func_out=False, C, kern, l, which_dim)   81-293 *)
  Definition score_function_multid_seperate (X Zp : mat T) (C : T) (kern : string) (l : lscale) (which_dim : Z)
    : res (list T) :=
    let! (K_xz, Ksinv, A, s) := prep (K_of kern) (grdx_of kern) X Zp l which_dim in
    rmap flat (eval_at_samples C (mr Zp) K_xz Ksinv A s).

  (** score_function_multid_seperate(..., func_out=True): the returned function  81-293 *)
  Definition score_function_multid_seperate_fun (X Zp : mat T) (C : T) (kern : string) (l : lscale) (which_dim : Z)
    : res (mat T -> res (list T)) :=
    let! (K_xz, Ksinv, A, s) := prep (K_of kern) (grdx_of kern) X Zp l which_dim in
    Ok (fun x => rmap flat (eval_fun (Ksz_of kern Zp l) C (mr Zp) Ksinv A s x)).

  (** score_function_multid_seperate_all_dims: kernels of 335-438.  With kern='periodic' only grdx_K is defined,
      not grdx_K_all, so line 457/473 raises UnboundLocalError. *)
  Definition K_of_all (kern : string) : mat T -> mat T -> lscale -> res (mat T) :=
    if String.eqb kern "RBF" then K_all
    else if String.eqb kern "periodic" then K_per
    else fun _ _ _ => Err UnboundLocalError.
  Definition grdx_of_all (kern : string) : mat T -> mat T -> lscale -> res (arr3 T) :=
    if String.eqb kern "RBF" then grdx_K_all K_all else fun _ _ _ => Err UnboundLocalError.

  (** 442-474 *)
  Definition prep_all (K : mat T -> mat T -> lscale -> res (mat T))
                  (grd : mat T -> mat T -> lscale -> res (arr3 T))
                  (X Zp : mat T) (l : lscale) : res (mat T * mat T * mat T * mat T) :=
    let! K_xz := K X Zp l in
    let! Ks := K Zp Zp l in
    let! Ksinv := reg_inv Ks (mr Zp) in
    let! A := mmul (mT K_xz) K_xz in
    let! G := grd X Zp l in
    Ok (K_xz, Ksinv, A,
        sum0_3 (Arr3 (a_d G) (a_n G) (a_k G) (map mopp (a_s G)))).

  (** score_function_multid_seperate_all_dims(X, Z, func_out=False, C, kern, l)   299-510 *)
  Definition score_function_multid_seperate_all_dims (X Zp : mat T) (C : T) (kern : string) (l : lscale)
    : res (mat T) :=
    let! (K_xz, Ksinv, A, s) := prep_all (K_of_all kern) (grdx_of_all kern) X Zp l in
    eval_at_samples C (mr Zp) K_xz Ksinv A s.

  (** score_function_multid_seperate_all_dims(..., func_out=True)   299-510 *)
  Definition score_function_multid_seperate_all_dims_fun (X Zp : mat T) (C : T) (kern : string) (l : lscale)
    : res (mat T -> res (mat T)) :=
    let! (K_xz, Ksinv, A, s) := prep_all (K_of_all kern) (grdx_of_all kern) X Zp l in
    Ok (eval_fun (Ksz_of kern Zp l) C (mr Zp) Ksinv A s).

  (** score_function_multid_seperate_old: only the RBF kernel is defined (551-571)  515-622 *)
  Definition K_of_old (kern : string) : mat T -> mat T -> lscale -> res (mat T) :=
    if String.eqb kern "RBF" then K_old else fun _ _ _ => Err UnboundLocalError.
  Definition score_function_multid_seperate_old (X Zp : mat T) (C : T) (kern : string) (l : lscale) (which_dim : Z)
    : res (list T) :=
    let! (K_xz, Ksinv, A, s) := prep (K_of_old kern) (grdx_K K_old) X Zp l which_dim in
    rmap flat (eval_at_samples C (mr Zp) K_xz Ksinv A s).
  Definition score_function_multid_seperate_old_fun (X Zp : mat T) (C : T) (kern : string) (l : lscale) (which_dim : Z)
    : res (mat T -> res (list T)) :=
    let! (K_xz, Ksinv, A, s) := prep (K_of_old kern) (grdx_K K_old) X Zp l which_dim in
    Ok (fun x => rmap flat (eval_fun (Ksz Zp l) C (mr Zp) Ksinv A s x)).

  (** score.py:17-119  score_function_multid_seperate2 (same estimator as _old, other function output) *)
  Definition score_function_multid_seperate2 := score_function_multid_seperate_old.
  Definition score_function_multid_seperate2_fun (X Zp : mat T) (C : T) (kern : string) (l : lscale) (which_dim : Z)
    : res (mat T -> res (list T)) :=
    let! (K_xz, Ksinv, A, s) := prep (K_of_old kern) (grdx_K K_old) X Zp l which_dim in
    Ok (fun x => rmap flat (eval_fun (Ksz_two Zp l) C (mr Zp) Ksinv A s x)).
End Score.
Arguments lscale : clear implicits.
