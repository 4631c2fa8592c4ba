(** C39, C40, C41: the RBF kernels, their gradients, and RBF objects. *)
From Coq Require Import String List ZArith Reals Lra Lia Bool.
From Verif Require Import Base.Num Base.Py Base.Arr Lib.ArrLemmas Model.Ext Model.Cdist Model.Score Model.ScoreTorch Lib.ScoreLemmas.
From Verif Require Import Spec.RealSpec Spec.Contracts Spec.KernelSpec Lib.RSum Lib.RMat Lib.Gauss Lib.KernelForms.
Import ListNotations.
Local Open Scope R_scope.

(** the arguments of a kernel call: points as rows in R^D, one lengthscale per coordinate (or a single one) *)
Definition kernel_args (D : nat) (x y : mat R) (l : lscale R) : Prop :=
  mc x = D /\ mc y = D /\ match l with LScal _ => True | LVec ls => List.length ls = D end.
(** the lengthscale of coordinate d *)
Definition scale_of (l : lscale R) (d : nat) : R := match l with LScal v => v | LVec ls => nth d ls 0 end.

(** the kernels of the three numpy estimators and of their function outputs *)
Inductive numpy_kernel : (mat R -> mat R -> lscale R -> res (mat R)) -> Prop :=
| nk_separate : numpy_kernel K_sep
| nk_all_dims : numpy_kernel K_all
| nk_old : numpy_kernel K_old.

(** C39: every entry is the Gaussian kernel of the two points *)
Theorem C39_numpy_kernels K D x y l : numpy_kernel K -> kernel_args D x y l ->
  exists A, K x y l = Ok A /\ mr A = mr x /\ mc A = mr y /\
    forall i j, (i < mr x)%nat -> (j < mr y)%nat -> get A i j = gaussk D (scale_of l) (get x i) (get y j).
Proof.
  intros HK (Hx & Hy & Hl). exists (Kmat D l x y). split.
  - destruct HK; [apply K_sep_R|apply K_all_R|apply K_old_R]; auto.
  - split; [reflexivity|]. split; [reflexivity|]. intros. unfold Kmat. now rewrite get_mk.
Qed.
(** the kernel inside the returned functions (argument order: inducing points, lengthscales, evaluation points) *)
Theorem C39_function_kernel D x y l : kernel_args D x y l -> (1 <= D)%nat ->
  exists A, Ksz y l x = Ok A /\ mr A = mr x /\ mc A = mr y /\
    forall i j, (i < mr x)%nat -> (j < mr y)%nat -> get A i j = gaussk D (scale_of l) (get x i) (get y j).
Proof.
  intros (Hx & Hy & Hl) HD. exists (Kmat D l x y). split; [now apply Ksz_R|].
  split; [reflexivity|]. split; [reflexivity|]. intros. unfold Kmat. now rewrite get_mk.
Qed.
(** RBF(length_scale, signal_variance, multil).Kernel(X, Y) in torch: times the signal variance *)
Theorem C39_torch_kernel D x y l sv : kernel_args D x y l ->
  exists o A o', RBF_init l sv (match l with LVec _ => true | _ => false end) = Ok o /\ RBF_Kernel o x y = Ok (A, o') /\
    mr A = mr x /\ mc A = mr y /\
    forall i j, (i < mr x)%nat -> (j < mr y)%nat -> get A i j = sv * gaussk D (scale_of l) (get x i) (get y j).
Proof.
  intros (Hx & Hy & Hl).
  assert (HR : RBF_init l sv (match l with LVec _ => true | _ => false end) = Ok {| rb_l := l; rb_multil := (match l with LVec _ => true | _ => false end); rb_sv := sv; rb_K := None |}) by now destruct l.
  eexists. exists (smul sv (Kmat D l x y)). eexists. split; [exact HR|]. split.
  { unfold RBF_Kernel. cbn [rb_l rb_sv rb_multil]. replace (rbf_kvals _ l x y) with (rbf_vals l x y) by now destruct l. rewrite (rbf_vals_R D x y l) by auto. reflexivity. }
  split; [reflexivity|]. split; [reflexivity|]. intros. unfold smul. rewrite get_mmap1 by auto. unfold Kmat. now rewrite get_mk.
Qed.
(** values in (0,1], 1 exactly on coinciding points, symmetric, and equal lengthscales behave like a single one *)
Theorem C39_values K D x y l : numpy_kernel K -> kernel_args D x y l -> (forall d, (d < D)%nat -> scale_of l d <> 0) ->
  exists A B, K x y l = Ok A /\ K y x l = Ok B /\
    forall i j, (i < mr x)%nat -> (j < mr y)%nat ->
      0 < get A i j <= 1 /\ get B j i = get A i j /\ (get A i j = 1 <-> forall d, (d < D)%nat -> get x i d = get y j d).
Proof.
  intros HK Ha Hn. destruct (C39_numpy_kernels K D x y l HK Ha) as (A & HA & _ & _ & GA).
  assert (Hb : kernel_args D y x l) by (destruct Ha as (? & ? & ?); repeat split; auto).
  destruct (C39_numpy_kernels K D y x l HK Hb) as (B & HB & _ & _ & GB). exists A, B. split; [auto|]. split; [auto|]. intros i j Hi Hj.
  rewrite GA, GB by auto. split; [split; [apply gaussk_pos|apply gaussk_le1]|]. split; [apply gaussk_sym|]. now apply gaussk_1.
Qed.
Theorem C39_equal_lengthscales K D x y v : numpy_kernel K -> mc x = D -> mc y = D ->
  K x y (LVec (repeat v D)) = K x y (LScal v).
Proof.
  intros HK Hx Hy. assert (Q : Kmat D (LVec (repeat v D)) x y = Kmat D (LScal v) x y).
  { apply mk_ext. intros. apply gaussk_ext; auto. intros d Hd. cbn [lsc]. rewrite (nth_indep _ 0 v) by (now rewrite repeat_length). apply nth_repeat. }
  assert (L : lok D (LVec (repeat v D))) by apply repeat_length.
  destruct HK; [rewrite !(K_sep_R D)|rewrite !(K_all_R D)|rewrite !(K_old_R D)]; auto; try exact I; now rewrite Q.
Qed.

(** C40: the matrix computed as "gradient" is MINUS the partial derivative of the kernel with respect to the d-th coordinate of
    its first argument, at every pair of points *)
Definition minus_gradient (D : nat) (l : nat -> R) (x y : mat R) (d : nat) (G : mat R) : Prop :=
  mr G = mr x /\ mc G = mr y /\
  forall i j, (i < mr x)%nat -> (j < mr y)%nat -> partial_at (fun p => gaussk D l p (get y j)) d (get x i) (- get G i j).
Lemma Gmat_minus D l x y d : (d < D)%nat -> lsc l d <> 0 -> minus_gradient D (lsc l) x y d (Gmat D l x y d).
Proof.
  intros Hd Hl. split; [reflexivity|]. split; [reflexivity|]. intros i j Hi Hj. rewrite Gmat_dgauss by auto. rewrite Ropp_involutive.
  now apply gaussk_partial.
Qed.
Theorem C40_numpy_gradients K D x y l d : numpy_kernel K -> kernel_args D x y l -> (d < D)%nat -> scale_of l d <> 0 ->
  exists G, grdx_K K x y l (Z.of_nat d + 1) = Ok G /\ minus_gradient D (scale_of l) x y d G.
Proof.
  intros HK (Hx & Hy & Hl) Hd Hn. exists (Gmat D l x y d). split; [|now apply Gmat_minus].
  apply grdx_R; auto. destruct HK; [apply K_sep_R|apply K_all_R|apply K_old_R]; auto.
Qed.
Theorem C40_all_dims_gradient D x y l : kernel_args D x y l -> (forall d, (d < D)%nat -> scale_of l d <> 0) ->
  exists G, grdx_K_all K_all x y l = Ok G /\ a_k G = D /\ forall d, (d < D)%nat -> minus_gradient D (scale_of l) x y d (slice G d).
Proof.
  intros (Hx & Hy & Hl) Hn. unfold grdx_K_all. rewrite Hx, Hy, bok_refl.
  rewrite (rmapM_intro _ (Gmat D l x y)). 2:{ intros d Hd. apply in_seq in Hd. apply grdx_R; auto; try lia; now apply K_all_R. }
  eexists. split; [reflexivity|]. split; [reflexivity|]. intros d Hd. unfold slice. cbn [a_s]. rewrite nth_map_seq by auto. apply Gmat_minus; auto.
Qed.

(** ** RBF objects *)
(** one call on an object; a call that raises leaves the object unchanged *)
Inductive rbf_call := KernelCall (X Y : mat R) | GradientCall (X Y : mat R).
Definition after_call (o : RBF R) (c : rbf_call) : RBF R :=
  match c with KernelCall X Y => match RBF_Kernel o X Y with Ok (_, o') => o' | Err _ => o end | GradientCall _ _ => o end.
Definition after_calls (o : RBF R) (cs : list rbf_call) : RBF R := fold_left after_call cs o.
(** the arguments of the most recent Kernel call that did not raise *)
Fixpoint last_kernel (o : RBF R) (cs : list rbf_call) : option (mat R * mat R) :=
  match cs with
  | [] => None
  | c :: cs' => match last_kernel o cs' with
                | Some p => Some p
                | None => match c with KernelCall X Y => if isOk (RBF_Kernel o X Y) then Some (X, Y) else None | GradientCall _ _ => None end
                end
  end.
Definition same_settings (o o' : RBF R) : Prop := rb_l o = rb_l o' /\ rb_sv o = rb_sv o' /\ rb_multil o = rb_multil o'.
Lemma kernel_same o o' X Y : same_settings o o' -> rmap fst (RBF_Kernel o X Y) = rmap fst (RBF_Kernel o' X Y).
Proof. intros (H1 & H2 & H3). unfold RBF_Kernel. rewrite H1, H2, H3. now destruct (rbf_kvals (rb_multil o') (rb_l o') X Y). Qed.
Lemma kernel_isOk o o' X Y : same_settings o o' -> isOk (RBF_Kernel o X Y) = isOk (RBF_Kernel o' X Y).
Proof. intro H. pose proof (kernel_same o o' X Y H) as Q. destruct (RBF_Kernel o X Y), (RBF_Kernel o' X Y); try discriminate; auto. Qed.
Lemma last_kernel_same o o' cs : same_settings o o' -> last_kernel o cs = last_kernel o' cs.
Proof. intro H. induction cs as [|c cs IH]; cbn; auto. rewrite IH. destruct c; auto. now rewrite (kernel_isOk o o' X Y H). Qed.
Lemma after_call_settings o c : same_settings (after_call o c) o.
Proof.
  destruct c as [X Y|X Y]; cbn; [|now repeat split]. unfold RBF_Kernel. destruct (rbf_kvals (rb_multil o) (rb_l o) X Y); cbn; now repeat split.
Qed.
Lemma after_calls_settings o cs : same_settings (after_calls o cs) o.
Proof.
  revert o. induction cs as [|c cs IH]; intro o; [now repeat split|]. change (same_settings (after_calls (after_call o c) cs) o). destruct (IH (after_call o c)) as (A1 & A2 & A3).
  destruct (after_call_settings o c) as (B1 & B2 & B3). repeat split; congruence.
Qed.
Lemma after_calls_K o cs : rb_K o = None ->
  rb_K (after_calls o cs) = match last_kernel o cs with Some (X, Y) => match RBF_Kernel o X Y with Ok (k, _) => Some k | Err _ => None end | None => None end.
Proof.
  intro H0. enough (G : forall o', same_settings o' o -> rb_K (after_calls o' cs) =
     match last_kernel o cs with Some (X, Y) => match RBF_Kernel o X Y with Ok (k, _) => Some k | Err _ => None end | None => rb_K o' end).
  { rewrite G by now repeat split. now rewrite H0. }
  induction cs as [|c cs IH]; intros o' Ho'; cbn [after_calls fold_left last_kernel]; auto.
  assert (HS : same_settings (after_call o' c) o). { destruct (after_call_settings o' c) as (A1 & A2 & A3), Ho' as (B1 & B2 & B3). repeat split; congruence. }
  specialize (IH _ HS). unfold after_calls in IH. rewrite IH. destruct (last_kernel o cs) as [[X Y]|]; auto.
  destruct c as [X Y|X Y]; cbn [after_call]; auto.
  pose proof (kernel_isOk o' o X Y Ho') as Q. pose proof (kernel_same o' o X Y Ho') as Q'.
  unfold RBF_Kernel in *. destruct (rbf_kvals (rb_multil o') (rb_l o') X Y), (rbf_kvals (rb_multil o) (rb_l o) X Y) eqn:E2; cbn in *; try discriminate; auto. rewrite E2. cbn. congruence.
Qed.

(** C41, the constructor: multil=True needs a sequence of lengthscales; every other combination is accepted *)
Theorem C41_constructor l sv multil : l <> LVec [] ->
  match multil, l with
  | true, LScal _ => RBF_init l sv multil = Err IndexError
  | _, _ => exists o, RBF_init l sv multil = Ok o /\ rb_sv o = sv /\ rb_multil o = multil /\ forall d, match l with LVec (_ :: _ :: _) | LScal _ => scale_of (rb_l o) d = scale_of l d | _ => scale_of (rb_l o) 0 = scale_of l 0 end
  end.
Proof.
  intro H. destruct multil, l as [v|[|a [|b ls]]]; try congruence; try reflexivity; eexists; (split; [reflexivity|]); cbn; auto.
Qed.
(** C41, several lengthscales but multil=False (the default): accepted, but lengthscale j is then used for the j-th point of Y instead of the
    j-th coordinate; with another number of points Kernel raises, with a single point it returns one column per lengthscale *)
Theorem C41_vector_without_multil ls sv X Y : (2 <= List.length ls)%nat -> mc X = mc Y ->
  exists o, RBF_init (LVec ls) sv false = Ok o /\
    (mr Y <> 1%nat -> mr Y <> List.length ls -> RBF_Kernel o X Y = Err RuntimeError) /\
    (mr Y = 1%nat \/ mr Y = List.length ls -> exists A o', RBF_Kernel o X Y = Ok (A, o') /\ mr A = mr X /\ mc A = List.length ls /\
       forall i j, (i < mr X)%nat -> (j < List.length ls)%nat ->
         get A i j = sv * gaussk (mc X) (fun _ => nth j ls 0) (get X i) (get Y (if (mr Y =? 1)%nat then 0 else j)%nat)).
Proof.
  intros HL Hc. destruct ls as [|a [|b ls]]; try (cbn in HL; lia). set (l := a :: b :: ls) in *.
  exists {| rb_l := LVec l; rb_multil := false; rb_sv := sv; rb_K := None |}. split; [reflexivity|]. unfold RBF_Kernel. cbn [rb_multil rb_l rb_sv rbf_kvals]. unfold rbf_cols. rewrite <- Hc, bok_refl, bdim_refl. cbn [andb].
  unfold bok, bdim. split.
  - intros H1 H2. destruct (Nat.eqb_spec (mr Y) (List.length l)); [lia|]. destruct (Nat.eqb_spec (mr Y) 1); [lia|]. destruct (Nat.eqb_spec (List.length l) 1); [lia|]. reflexivity.
  - intro H. assert (B : ((mr Y =? List.length l) || (mr Y =? 1) || (List.length l =? 1))%nat = true).
    { destruct H as [ -> | -> ]; rewrite ?Nat.eqb_refl, ?orb_true_r; reflexivity. }
    rewrite B. cbn [rbind]. eexists. eexists. split; [reflexivity|]. split; [reflexivity|].
    assert (M : (if (mr Y =? 1)%nat then List.length l else mr Y) = List.length l). { destruct (Nat.eqb_spec (mr Y) 1); lia. } rewrite M. split; [reflexivity|].
    intros i j Hi Hj. unfold smul. rewrite get_mmap1 by assumption. rewrite get_mk by auto. cbn [nmul ROps]. f_equal. rewrite <- sum_gauss. cbn [nexp ROps]. f_equal. rewrite nsum_seq. unfold bidx at 2.
    destruct (Nat.eqb_spec (List.length l) 1) as [e|_]; [lia|]. cbn [ndiv nmul nlit ROps]. change nzero with 0.
    rewrite (sumn_ext _ _ (fun k => (get X i k - get Y (if (mr Y =? 1)%nat then 0 else j)%nat k) ^ 2)).
    2:{ intros k Hk. unfold diff3, nsq. cbn [nmul nsub ROps]. rewrite <- Hc, !(bidx_lt (mc X) k Hk). unfold bidx. destruct (mr Y =? 1)%nat; ring. }
    unfold nsq. cbn [nmul ROps]. unfold Rdiv. replace (2 * nth j l 0 ^ 2) with (2 * (nth j l 0 * nth j l 0)) by ring. rewrite !Rinv_mult. generalize (/ nth j l 0). intro. lra.
Qed.
(** C41, no Kernel call yet: gradient_X raises whatever its arguments *)
Theorem C41_no_kernel_call l sv multil o cs X Y : RBF_init l sv multil = Ok o -> last_kernel o cs = None ->
  RBF_gradient_X (after_calls o cs) X Y = Err RuntimeError.
Proof.
  intros Hi Hl. assert (HK : rb_K o = None). { unfold RBF_init in Hi. destruct multil, l as [|[|? [|? ?]]]; inversion Hi; reflexivity. }
  pose proof (after_calls_K o cs HK) as Q. rewrite Hl in Q. unfold RBF_gradient_X. destruct (bok (mc X) (mc Y)); auto. cbv zeta. rewrite Q.
  destruct (rb_l (after_calls o cs)); cbn; auto. destruct (bok _ _); auto.
Qed.
(** C41: after any sequence of calls the most recent successful Kernel call (on X0, Y0) determines the factor: on arguments
    of the same shapes, gradient_X(X,Y) is (x - y)/l^2 times the kernel values of X0, Y0 *)
Theorem C41_last_kernel_call D l sv o cs X0 Y0 X Y :
  RBF_init l sv (match l with LVec _ => true | _ => false end) = Ok o -> last_kernel o cs = Some (X0, Y0) ->
  kernel_args D X0 Y0 l -> kernel_args D X Y l -> mr X = mr X0 -> mr Y = mr Y0 ->
  exists G, RBF_gradient_X (after_calls o cs) X Y = Ok G /\ a_k G = D /\ forall d, (d < D)%nat ->
    mr (slice G d) = mr X /\ mc (slice G d) = mr Y /\
    forall i j, (i < mr X)%nat -> (j < mr Y)%nat ->
      get (slice G d) i j = (get X i d - get Y j d) / scale_of l d ^ 2 * (sv * gaussk D (scale_of l) (get X0 i) (get Y0 j)).
Proof.
  intros Hi Hl (Hx0 & Hy0 & Hl0) (Hx & Hy & _) RX RY.
  assert (HR : o = {| rb_l := l; rb_multil := (match l with LVec _ => true | _ => false end); rb_sv := sv; rb_K := None |}) by (destruct l; now inversion Hi).
  pose proof (after_calls_K o cs ltac:(now rewrite HR)) as Q. rewrite Hl in Q.
  destruct (after_calls_settings o cs) as (A1 & A2 & A3). assert (L : rb_l (after_calls o cs) = l) by (rewrite A1, HR; reflexivity).
  assert (QK : rb_K (after_calls o cs) = Some (smul sv (Kmat D l X0 Y0))).
  { rewrite Q. unfold RBF_Kernel. rewrite HR. cbn [rb_l rb_sv rb_multil]. replace (rbf_kvals _ l X0 Y0) with (rbf_vals l X0 Y0) by now destruct l. now rewrite (rbf_vals_R D X0 Y0 l) by auto. }
  unfold RBF_gradient_X. rewrite Hx, Hy, bok_refl, bdim_refl. cbv zeta. rewrite L, QK.
  set (W := fun k => mk (mr X) (mr Y) (fun i j => (get X i k - get Y j k) / scale_of l k ^ 2)).
  assert (HSL : match l with
        | LScal l0 => Ok (map (fun k => mk (mr X) (mr Y) (fun i j => ndiv (diff3 X Y i j k) (nsq l0))) (seq 0 D))
        | LVec ls => if bok D (List.length ls) then Ok (map (fun k => mk (mr X) (mr Y)
             (fun i j => ndiv (diff3 X Y i j (bidx D k)) (nsq (nth (bidx (List.length ls) k) ls nzero)))) (seq 0 (bdim D (List.length ls)))) else Err RuntimeError
        end = Ok (map W (seq 0 D))).
  { destruct l as [l0|ls]; cbn in Hl0.
    - f_equal. apply map_seq_ext. intros k Hk. apply mk_ext. intros i j Hi' Hj. unfold diff3, nsq. cbn. rewrite Hx, Hy, !(bidx_lt D k Hk). now rewrite Rmult_1_r.
    - rewrite Hl0, bok_refl, bdim_refl. f_equal. apply map_seq_ext. intros k Hk. apply mk_ext. intros i j Hi' Hj. unfold diff3, nsq. cbn. rewrite Hx, Hy, !(bidx_lt D k Hk). now rewrite Rmult_1_r. }
  rewrite HSL. cbn [rbind]. cbn [smul mmap1 mk mr mc Kmat]. rewrite RX, RY, !bok_refl, !bdim_refl. cbn [andb].
  eexists. split; [reflexivity|]. split; [cbn [a_k]; now rewrite map_length, seq_length|]. intros d Hd. unfold slice. cbn [a_s].
  rewrite map_map, nth_map_seq by auto. split; [reflexivity|]. split; [reflexivity|]. intros i j Hi' Hj.
  rewrite get_mk by lia. unfold W.
  assert (P1 : forall A : mat R, (i < mr A)%nat -> (j < mc A)%nat -> bget A i j = get A i j) by (intros; now apply bget_in).
  rewrite !P1 by (first [change (i < mr X)%nat|change (j < mr Y)%nat|change (i < mr X0)%nat|change (j < mr Y0)%nat]; lia).
  rewrite get_mk by lia. cbn [nmul ROps]. f_equal.
  unfold smul. rewrite get_mmap1 by assumption. unfold Kmat. rewrite get_mk by lia. reflexivity.
Qed.
(** hence on the arguments of that call (with signal variance 1) it is minus the gradient of the kernel *)
Theorem C41_same_arguments D l o cs X Y : RBF_init l 1 (match l with LVec _ => true | _ => false end) = Ok o -> last_kernel o cs = Some (X, Y) ->
  kernel_args D X Y l -> (forall d, (d < D)%nat -> scale_of l d <> 0) ->
  exists G, RBF_gradient_X (after_calls o cs) X Y = Ok G /\ a_k G = D /\ forall d, (d < D)%nat -> minus_gradient D (scale_of l) X Y d (slice G d).
Proof.
  intros Hi Hl Ha Hn. destruct (C41_last_kernel_call D l 1 o cs X Y X Y Hi Hl Ha Ha eq_refl eq_refl) as (G & G1 & G2 & G3).
  exists G. split; [auto|]. split; [auto|]. intros d Hd. destruct (G3 d Hd) as (R1 & R2 & R3). split; [auto|]. split; [auto|]. intros i j Hi' Hj.
  rewrite R3 by auto. replace (- ((get X i d - get Y j d) / scale_of l d ^ 2 * (1 * gaussk D (scale_of l) (get X i) (get Y j)))) with (dgauss D (scale_of l) (get X i) (get Y j) d).
  - apply gaussk_partial; auto.
  - unfold dgauss. field. auto.
Qed.
(** a Kernel call on other points of the same shape silently changes the answer *)
Theorem C41_stale_factor : exists (o : RBF R) X Y X0 cs, RBF_init (LScal 1) 1 false = Ok o /\ last_kernel o cs = Some (X0, Y) /\
  kernel_args 1 X Y (LScal 1) /\
  exists G, RBF_gradient_X (after_calls o cs) X Y = Ok G /\ ~ minus_gradient 1 (scale_of (LScal 1)) X Y 0 (slice G 0).
Proof.
  set (o := {| rb_l := LScal 1; rb_multil := false; rb_sv := 1; rb_K := None |} : RBF R).
  set (X := mk 1 1 (fun _ _ => 1)). set (Y := mk 1 1 (fun _ _ => 0)). set (X0 := mk 1 1 (fun _ _ => 0)).
  assert (Hl : last_kernel o [KernelCall X Y; KernelCall X0 Y] = Some (X0, Y)). { cbn [last_kernel]. unfold RBF_Kernel. cbn [rb_l rb_multil rbf_kvals o]. now rewrite (rbf_vals_R 1 X0 Y (LScal 1)). }
  exists o, X, Y, X0, [KernelCall X Y; KernelCall X0 Y]. split; [reflexivity|]. split; [exact Hl|]. split; [repeat split|].
  destruct (C41_last_kernel_call 1 (LScal 1) 1 o _ X0 Y X Y eq_refl Hl ltac:(repeat split) ltac:(repeat split) eq_refl eq_refl) as (G & G1 & G2 & G3).
  exists G. split; [auto|]. intros (_ & _ & HG). specialize (HG O O ltac:(cbn; lia) ltac:(cbn; lia)).
  destruct (G3 O ltac:(lia)) as (_ & _ & HV). rewrite HV in HG by (cbn; lia).
  pose proof (gaussk_partial 1 (scale_of (LScal 1)) (get Y 0) 0 (get X 0) ltac:(lia) ltac:(cbn; lra)) as HT.
  pose proof (partial_unique _ _ _ _ _ HG HT) as Q. unfold dgauss, gaussk in Q. cbn in Q.
  assert (E0 : exp (- (0 + (0 - 0) * ((0 - 0) * 1) / (2 * (1 * (1 * 1))))) = 1). { transitivity (exp 0); [f_equal; field|apply exp_0]. }
  assert (E1 : exp (- (0 + (1 - 0) * ((1 - 0) * 1) / (2 * (1 * (1 * 1))))) < 1). { apply Rlt_le_trans with (exp 0); [apply exp_increasing; lra|rewrite exp_0; lra]. }
  rewrite E0 in Q. set (e := exp (- (0 + (1 - 0) * ((1 - 0) * 1) / (2 * (1 * (1 * 1)))))) in *. lra.
Qed.
(** concrete arguments: three points, two points, two lengthscales *)
Example C39_args : kernel_args 2 (mk 3 2 (fun i j => INR i - INR j)) (mk 2 2 (fun _ _ => 1)) (LVec [1; 2]).
Proof. repeat split. Qed.
(** two lengthscales, two points in the plane, multil=False *)
Example C41_args : (2 <= List.length [1; 2])%nat /\ mc (mk 3 2 (fun i j => INR i - INR j)) = mc (mk 2 2 (fun _ _ => 1)).
Proof. repeat constructor. Qed.
