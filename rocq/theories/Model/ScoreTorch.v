(** kernels/RBF_pytorch.py and score_estimators/score_function_estimators_pytorch.py.
    Tensors are float64 on one device; autograd bookkeeping, device moves and the float32 dtype of
    torch.eye (its 1e-3 multiple is rounded to float32 before promotion) are not modelled. *)
From Coq Require Import String List ZArith Lia Bool.
From Verif Require Import Base.Num Base.Py Base.Arr Model.Ext Model.Cdist Model.Score.
Import ListNotations.

(** torch reports shape mismatches (numpy: ValueError) and singular matrices as RuntimeError *)
Definition tor {A} (m : res A) : res A :=
  match m with
  | Err ValueError => Err RuntimeError
  | Err LinAlgError => Err RuntimeError
  | _ => m
  end.

Section ScoreTorch.
  Context {T S : Type} {O : NumOps T} (E : Ext T S).

  Definition tbc2 (op : T -> T -> T) (A B : mat T) : res (mat T) := tor (bc2 op A B).
  Definition tmmul (A B : mat T) : res (mat T) := tor (mmul A B).
  Definition tinv (A : mat T) : res (mat T) := tor (linalg_inv E A).

  (** ** class RBF *)

  (** attributes after __init__ (RBF_pytorch.py:49-63).  [rb_l] is the lengthscale tensor: 0-d (LScal) or 1-d
      (LVec, stored as [None,None,:] when multil).  K_data: the 0-d tensor 0 until Kernel is called (None here). *)
  Record RBF := { rb_l : lscale T; rb_multil : bool; rb_sv : T; rb_K : option (mat T) }.

  (** __init__(length_scale, signal_variance, multil)  26-63: a 0-d lengthscale with multil=True cannot be
      indexed [None, None, :] (IndexError).  With multil=False a lengthscale tensor of one entry behaves as a
      scalar; an empty one is outside the model (RuntimeError here); longer ones are kept as they are. *)
  Definition RBF_init (l : lscale T) (sv : T) (multil : bool) : res RBF :=
    match multil, l with
    | true, LScal _ => Err IndexError
    | true, LVec ls => Ok {| rb_l := LVec ls; rb_multil := true; rb_sv := sv; rb_K := None |}
    | false, LVec [l0] => Ok {| rb_l := LScal l0; rb_multil := false; rb_sv := sv; rb_K := None |}
    | false, LVec [] => Err RuntimeError
    | false, LVec ls => Ok {| rb_l := LVec ls; rb_multil := false; rb_sv := sv; rb_K := None |}
    | false, LScal l0 => Ok {| rb_l := LScal l0; rb_multil := false; rb_sv := sv; rb_K := None |}
    end.

  (** entry (i,j,k) of X[:,None,:]-Y[None,:,:] after broadcasting of the last axis *)
  Definition diff3 (X Y : mat T) (i j k : nat) : T :=
    nsub (get X i (bidx (mc X) k)) (get Y j (bidx (mc Y) k)).

  (** the kernel values of lines 98-112 (before the signal variance); also lines 131-135 and 148-153 of
      score_function_estimators_pytorch.py *)
  Definition rbf_vals (l : lscale T) (X Y : mat T) : res (mat T) :=
    if bok (mc X) (mc Y) then
      let D := bdim (mc X) (mc Y) in
      match l with
      | LScal l0 =>
          Ok (mk (mr X) (mr Y) (fun i j =>
            nexp (nmul (nlit (-1) 2)
                   (ndiv (nsum (map (fun k => nsq (diff3 X Y i j k)) (seq 0 D))) (nsq l0)))))
      | LVec ls =>
          let L := length ls in
          if bok D L then
            let D' := bdim D L in
            Ok (mk (mr X) (mr Y) (fun i j =>
              nexp (nmul (nlit (-1) 2)
                 (nsum (map (fun k => ndiv (nsq (diff3 X Y i j (bidx D k))) (nsq (nth (bidx L k) ls nzero)))
                            (seq 0 D'))))))
          else Err RuntimeError
      end
    else Err RuntimeError.

  (** multil=False with several lengthscales (103-108): the (N, M) squared distances are divided by the 1-d tensor length_scale**2, which
      broadcasts along the second axis, the points Y, not along the coordinates *)
  Definition rbf_cols (ls : list T) (X Y : mat T) : res (mat T) :=
    if bok (mc X) (mc Y) && bok (mr Y) (length ls) then
      Ok (mk (mr X) (bdim (mr Y) (length ls)) (fun i j =>
        nexp (nmul (nlit (-1) 2)
               (ndiv (nsum (map (fun k => nsq (diff3 X Y i (bidx (mr Y) j) k)) (seq 0 (bdim (mc X) (mc Y)))))
                     (nsq (nth (bidx (length ls) j) ls nzero))))))
    else Err RuntimeError.
  Definition rbf_kvals (multil : bool) (l : lscale T) (X Y : mat T) : res (mat T) :=
    match multil, l with
    | false, LVec ls => rbf_cols ls X Y
    | _, _ => rbf_vals l X Y
    end.

  (** Kernel(X, Y)  67-116 : also stores the result in K_data (115) *)
  Definition RBF_Kernel (o : RBF) (X Y : mat T) : res (mat T * RBF) :=
    let! k := rbf_kvals (rb_multil o) (rb_l o) X Y in
    let k' := smul (rb_sv o) k in
    Ok (k', {| rb_l := rb_l o; rb_multil := rb_multil o; rb_sv := rb_sv o; rb_K := Some k' |}).

  (** gradient_X(X, Y)  118-145 : diffs / l^2, times the stored K_data; an (N, M, D) tensor.
      einsum 'ijk,ij->ijk' needs a 2-d K_data whose axes match or have size 1. *)
  Definition RBF_gradient_X (o : RBF) (X Y : mat T) : res (arr3 T) :=
    if bok (mc X) (mc Y) then
      let D := bdim (mc X) (mc Y) in
      let! sl :=
        match rb_l o with
        | LScal l0 =>
            Ok (map (fun k => mk (mr X) (mr Y) (fun i j => ndiv (diff3 X Y i j k) (nsq l0))) (seq 0 D))
        | LVec ls =>
            let L := length ls in
            if bok D L then
              Ok (map (fun k => mk (mr X) (mr Y)
                    (fun i j => ndiv (diff3 X Y i j (bidx D k)) (nsq (nth (bidx L k) ls nzero)))) (seq 0 (bdim D L)))
            else Err RuntimeError
        end in
      match rb_K o with
      | None => Err RuntimeError
      | Some K =>
          if bok (mr X) (mr K) && bok (mr Y) (mc K) then
            Ok (Arr3 (bdim (mr X) (mr K)) (bdim (mr Y) (mc K)) (length sl)
                 (map (fun m => mk (bdim (mr X) (mr K)) (bdim (mr Y) (mc K))
                                  (fun i j => nmul (bget m i j) (bget K i j))) sl))
          else Err RuntimeError
      end
    else Err RuntimeError.

  (** ** torched_score_function_multid_seperate_all_dims *)

  (** the argument l: Python float; list/tuple/ndarray; 1-d tensor; 0-d tensor *)
  Inductive tlen := TFloat (l : T) | TSeq (l : list T) | TTens1 (l : list T) | TTens0 (l : T).

  (** line 75: multil, or IndexError from l.size(dim=0) on a 0-d tensor *)
  Definition tl_multil (l : tlen) : res bool :=
    match l with
    | TFloat _ => Ok false
    | TSeq _ => Ok true
    | TTens1 ls => Ok (1 <? length ls)
    | TTens0 _ => Err IndexError
    end.
  Definition tl_lscale (l : tlen) : lscale T :=
    match l with TFloat v => LScal v | TSeq ls => LVec ls | TTens1 ls => LVec ls | TTens0 v => LScal v end.

  (** lines 63-102; X and Z are tensors.  C is overwritten (64). *)
  Definition tprep (X Zp : mat T) (l : tlen) : res (bool * mat T * mat T * mat T * mat T) :=
    let! multil := tl_multil l in
    let! K0 := RBF_init (tl_lscale l) none1 multil in
    let! (K_xz, K1) := RBF_Kernel K0 X Zp in
    let! Kz0 := RBF_init (tl_lscale l) none1 multil in
    let! (K_s, _) := RBF_Kernel Kz0 Zp Zp in
    let! a := tbc2 nadd K_s (smul nmilli (eye (mr Zp))) in
    let! Ksinv := tinv a in
    let! A := tmmul (mT K_xz) K_xz in
    let! G := RBF_gradient_X K1 X Zp in
    Ok (multil, K_xz, Ksinv, A, sum0_3 (Arr3 (a_d G) (a_n G) (a_k G) (map mopp (a_s G)))).

  (** torch.linalg.inv(C*eye + Ksinv @ A + 1e-3*eye) with C = 0.001 (113-114, 160-161) *)
  Definition tinner (M : nat) (Ksinv A : mat T) : res (mat T) :=
    let! ka := tmmul Ksinv A in
    let! a1 := tbc2 nadd (smul nmilli (eye M)) ka in
    let! a2 := tbc2 nadd a1 (smul nmilli (eye M)) in
    tinv a2.

  (** s[:, di] as a column *)
  Definition tcolumn (s : mat T) (di : nat) : res (mat T) := column s di.

  (** func_out=False (104-115): column by column, dim = Z.shape[1] columns *)
  Definition torched_score_function_multid_seperate_all_dims (X Zp : mat T) (l : tlen) (C : T) (kern : string)
    : res (mat T) :=
    let! (multil, K_xz, Ksinv, A, s) := tprep X Zp l in
    let! cols := rmapM (fun di =>
        let! inn := tinner (mr Zp) Ksinv A in
        let! a := tmmul (mopp K_xz) inn in
        let! b := tmmul a Ksinv in
        let! sd := tcolumn s di in
        let! c := tmmul b sd in
        Ok (flat c)) (seq 0 (mc Zp)) in
    Ok (mk (mr X) (mc Zp) (fun i di => nth i (nth di cols []) nzero)).

  (** K_sz (127-138, 144-155) on an argument that is a tensor or an ndarray *)
  Definition tKsz (multil : bool) (Zp : mat T) (l : tlen) (kern : string) (is_tensor : bool) (x : mat T)
    : res (mat T) :=
    if String.eqb kern "RBF" then
      if multil then
        match l with
        | TSeq _ => Err TypeError                          (* l**2 on a list, torch.div by an ndarray *)
        | _ => rbf_vals (tl_lscale l) x Zp
        end
      else
        if is_tensor then Err UnboundLocalError            (* xu is only bound for non-tensors (145-148) *)
        else match tl_lscale l with
             | LVec [l0] => rbf_vals (LScal l0) x Zp
             | l' => rbf_vals l' x Zp
             end
    else Err NameError.                                    (* K_sz was never defined *)

  (** func_out=True (120-161): the returned function *)
  Definition torched_score_function_multid_seperate_all_dims_fun (X Zp : mat T) (l : tlen) (C : T) (kern : string)
    : res (bool -> mat T -> res (mat T)) :=
    let! (multil, K_xz, Ksinv, A, s) := tprep X Zp l in
    Ok (fun is_tensor x =>
      let! k := tKsz multil Zp l kern is_tensor x in
      let! inn := tinner (mr Zp) Ksinv A in
      let! a := tmmul k (mopp inn) in
      let! b := tmmul a Ksinv in
      tmmul b s).
End ScoreTorch.
Arguments RBF : clear implicits.
Arguments tlen : clear implicits.
