(** Over the reals every RBF kernel matrix of the code is the Gaussian kernel. *)
From Coq Require Import String List ZArith Reals Lra Lia Bool.
From Verif Require Import Base.Num Base.Py Base.Arr Lib.ArrLemmas Model.Ext Model.Cdist Model.Score Model.ScoreTorch Lib.ScoreLemmas.
From Verif Require Import Spec.RealSpec Spec.Contracts Spec.KernelSpec Lib.RSum Lib.RMat Lib.Gauss Props.CdistProps.
Import ListNotations.
Local Open Scope R_scope.

(** the lengthscale of coordinate d; a list must have one entry per coordinate *)
Definition lsc (l : lscale R) (d : nat) : R := match l with LScal v => v | LVec ls => nth d ls 0 end.
Definition lok (D : nat) (l : lscale R) : Prop := match l with LScal _ => True | LVec ls => List.length ls = D end.
Definition Kmat (D : nat) (l : lscale R) (x y : mat R) : mat R := mk (mr x) (mr y) (fun i j => gaussk D (lsc l) (get x i) (get y j)).

Lemma rfold_prod {A} (f : mat R -> A -> res (mat R)) (g : nat -> A) (F : nat -> nat -> nat -> R) r c D :
  (forall ii acc, (ii < D)%nat -> f acc (g ii) = bc2 nmul acc (mk r c (F ii))) ->
  rfold f (map g (seq 0 D)) (mones r c) = Ok (mk r c (fun i j => prodn D (fun d => F d i j))).
Proof.
  intro H. induction D as [|n IH]. { reflexivity. }
  rewrite seq_S, map_app, rfold_app, IH by auto. cbn [map rfold rbind]. cbn [Nat.add]. rewrite H by lia.
  rewrite bc2_mk. reflexivity.
Qed.
Lemma enumerate_map0 (ls : list R) D : List.length ls = D -> enumerate ls = map (fun i => (i, nth i ls 0)) (seq 0 D).
Proof. intros <-. apply enumerate_map. Qed.
Lemma rbf_mk l r c f : rbf_of_sq (T := R) l (mk r c f) = mk r c (fun i j => exp (- f i j / (2 * l ^ 2))).
Proof. unfold rbf_of_sq. rewrite mmap1_mk. apply mk_ext. intros. unfold ntwo. cbn. f_equal. f_equal. lra. Qed.
Lemma prodn_gauss D (l : nat -> R) x y : prodn D (fun d => exp (- (x d - y d) ^ 2 / (2 * l d ^ 2))) = gaussk D l x y.
Proof. rewrite prodn_exp. unfold gaussk. f_equal. rewrite <- sumn_opp. apply sumn_ext. intros. unfold Rdiv. ring. Qed.
Lemma sum_gauss D l x y : exp (- sumn D (fun d => (x d - y d) ^ 2) / (2 * l ^ 2)) = gaussk D (fun _ => l) x y.
Proof. unfold gaussk. f_equal. unfold Rdiv. rewrite Ropp_mult_distr_l_reverse, <- sumn_scal_r. reflexivity. Qed.

Lemma column_in (x : mat R) ii : (ii < mc x)%nat -> column x ii = Ok (mk (mr x) 1 (fun i _ => get x i ii)).
Proof. intro H. unfold column. apply Nat.ltb_lt in H. now rewrite H. Qed.
Lemma sqdist_col (x y : mat R) ii i j : (i < mr x)%nat -> (j < mr y)%nat ->
  sqdist (mk (mr x) 1 (fun i _ => get x i ii)) (mk (mr y) 1 (fun i _ => get y i ii)) i j = (get x i ii - get y j ii) ^ 2.
Proof. intros Hi Hj. rewrite sqdist_R. cbn [mk mc sumn]. rewrite !get_mk by lia. ring. Qed.
Lemma cdist_sq_col (x y : mat R) ii : cdist_sq (mk (mr x) 1 (fun i _ => get x i ii)) (mk (mr y) 1 (fun i _ => get y i ii)) =
  Ok (mk (mr x) (mr y) (fun i j => (get x i ii - get y j ii) ^ 2)).
Proof. unfold cdist_sq. cbn [mk mc mr Nat.eqb]. f_equal. apply mk_ext. intros. now apply sqdist_col. Qed.
Lemma my_cdist_col (x y : mat R) ii : my_cdist (mk (mr x) 1 (fun i _ => get x i ii)) (mk (mr y) 1 (fun i _ => get y i ii)) (mzeros (mr x) (mr y)) "sqeuclidean" =
  Ok (mk (mr x) (mr y) (fun i j => (get x i ii - get y j ii) ^ 2)).
Proof.
  etransitivity; [apply (my_cdist_sq (mk (mr x) 1 _) (mk (mr y) 1 _)); cbn; lia|]. cbn [mk mr]. f_equal. apply mk_ext. intros. now apply sqdist_col.
Qed.
Lemma sqdist_full (x y : mat R) : mk (mr x) (mr y) (sqdist x y) = mk (mr x) (mr y) (fun i j => sumn (mc x) (fun k => (get x i k - get y j k) ^ 2)).
Proof. apply mk_ext. intros. apply sqdist_R. Qed.

Section Forms.
  Context (D : nat) (x y : mat R) (l : lscale R) (Hx : mc x = D) (Hy : mc y = D) (Hl : lok D l).

  Lemma scal_form (m : res (mat R)) l0 : m = Ok (mk (mr x) (mr y) (sqdist x y)) -> l = LScal l0 ->
    (let! t := m in Ok (rbf_of_sq l0 t)) = Ok (Kmat D l x y).
  Proof.
    intros -> ->. cbn [rbind]. f_equal. rewrite sqdist_full, rbf_mk. apply mk_ext. intros. rewrite Hx. apply sum_gauss.
  Qed.
  Theorem K_sep_R : K_sep x y l = Ok (Kmat D l x y).
  Proof.
    destruct l as [l0|ls] eqn:El.
    - rewrite <- El in *. cbn [K_sep]. rewrite El. cbn [K_sep]. rewrite <- El. apply scal_form; auto. apply my_cdist_sq. lia.
    - cbn in Hl. cbn [K_sep]. rewrite (enumerate_map0 ls D Hl).
      rewrite (rfold_prod _ _ (fun d i j => exp (- (get x i d - get y j d) ^ 2 / (2 * nth d ls 0 ^ 2)))).
      + f_equal. apply mk_ext. intros. apply prodn_gauss.
      + intros ii acc Hii. unfold colslice. rewrite Hx, Hy. apply Nat.ltb_lt in Hii. rewrite Hii. rewrite cdist_sq_col. cbn [rbind]. now rewrite rbf_mk.
  Qed.
  Theorem K_all_R : K_all x y l = Ok (Kmat D l x y).
  Proof.
    destruct l as [l0|ls] eqn:El.
    - rewrite <- El in *. rewrite El. cbn [K_all]. rewrite <- El. apply scal_form; auto. apply my_cdist_sq. lia.
    - cbn in Hl. cbn [K_all]. rewrite (enumerate_map0 ls D Hl).
      rewrite (rfold_prod _ _ (fun d i j => exp (- (get x i d - get y j d) ^ 2 / (2 * nth d ls 0 ^ 2)))).
      + f_equal. apply mk_ext. intros. apply prodn_gauss.
      + intros ii acc Hii. rewrite !column_in by lia. cbn [rbind]. rewrite my_cdist_col. cbn [rbind]. now rewrite rbf_mk.
  Qed.
  Lemma cdist_full : cdist_sq x y = Ok (mk (mr x) (mr y) (sqdist x y)).
  Proof. unfold cdist_sq. rewrite Hx, Hy, Nat.eqb_refl. reflexivity. Qed.
  Theorem K_old_R : K_old x y l = Ok (Kmat D l x y).
  Proof.
    destruct l as [l0|ls] eqn:El.
    - rewrite <- El in *. rewrite El. cbn [K_old]. rewrite <- El. apply scal_form; auto. apply cdist_full.
    - cbn in Hl. cbn [K_old]. rewrite (enumerate_map0 ls D Hl).
      rewrite (rfold_prod _ _ (fun d i j => exp (- (get x i d - get y j d) ^ 2 / (2 * nth d ls 0 ^ 2)))).
      + f_equal. apply mk_ext. intros. apply prodn_gauss.
      + intros ii acc Hii. rewrite !column_in by lia. cbn [rbind]. rewrite cdist_sq_col. cbn [rbind]. now rewrite rbf_mk.
  Qed.
  Theorem Ksz_R : (1 <= D)%nat -> Ksz y l x = Ok (Kmat D l x y).
  Proof.
    intro HD. destruct l as [l0|ls] eqn:El.
    - rewrite <- El in *. rewrite El. cbn [Ksz]. unfold Ksz_scal. rewrite <- El. apply scal_form; auto. apply cdist_full.
    - cbn in Hl. cbn [Ksz]. unfold Ksz_vec.
      rewrite (rmapM_intro _ (fun d => mk (mr x) (mr y) (fun i j => exp (- (get x i d - get y j d) ^ 2 / (2 * nth d ls 0 ^ 2))))).
      2:{ intros ii Hii. apply in_seq in Hii. rewrite !column_in by lia. cbn [rbind]. rewrite cdist_sq_col. cbn [rbind].
          rewrite (pyget_nat ls ii 0) by lia. cbn [rbind]. now rewrite rbf_mk. }
      cbn [rbind]. rewrite Hx. destruct D as [|n]; [lia|]. cbn [seq map].
      assert (G : forall n, rfold (fun acc f => bc2 nmul acc f) (map (fun d => mk (mr x) (mr y) (fun i j => exp (- (get x i d - get y j d) ^ 2 / (2 * nth d ls 0 ^ 2)))) (seq 1 n))
         (mk (mr x) (mr y) (fun i j => exp (- (get x i 0 - get y j 0) ^ 2 / (2 * nth 0 ls 0 ^ 2)))) =
         Ok (mk (mr x) (mr y) (fun i j => prodn (S n) (fun d => exp (- (get x i d - get y j d) ^ 2 / (2 * nth d ls 0 ^ 2)))))).
      { clear. induction n as [|n IH].
        - cbn [seq map rfold]. f_equal. apply mk_ext. intros. cbn [prodn]. ring.
        - rewrite seq_S, map_app, rfold_app, IH. cbn [map rfold rbind Nat.add]. rewrite bc2_mk. reflexivity. }
      rewrite G. f_equal. apply mk_ext. intros. apply prodn_gauss.
  Qed.
  Theorem rbf_vals_R : rbf_vals l x y = Ok (Kmat D l x y).
  Proof.
    unfold rbf_vals. rewrite Hx, Hy, bok_refl, bdim_refl. cbv zeta. destruct l as [l0|ls].
    - f_equal. apply mk_ext. intros i j Hi Hj. rewrite nsum_seq. change (lsc (LScal l0)) with (fun _ : nat => l0). rewrite <- sum_gauss. cbn. unfold nsq. cbn. f_equal.
      unfold Rdiv. rewrite (sumn_ext D _ (fun k => (get x i k - get y j k) * ((get x i k - get y j k) * 1))).
      2:{ intros k Hk. unfold diff3. cbn. rewrite Hx, Hy, !bidx_lt by auto. ring. }
      replace (2 * (l0 * (l0 * 1))) with (2 * (l0 * l0)) by ring. rewrite !Rinv_mult. ring.
    - cbn in Hl. rewrite Hl, bok_refl, bdim_refl. f_equal. apply mk_ext. intros i j Hi Hj. rewrite nsum_seq. unfold gaussk. cbn. f_equal.
      rewrite <- sumn_opp, <- sumn_scal. apply sumn_ext. intros k Hk. unfold diff3, nsq. cbn. rewrite Hx, Hy, !(bidx_lt D k Hk).
      unfold Rdiv. replace (2 * (nth k ls 0 * (nth k ls 0 * 1))) with (2 * (nth k ls 0 * nth k ls 0)) by ring. rewrite (Rinv_mult 2). ring.
  Qed.
End Forms.

(** gradient matrices *)
Definition Gmat (D : nat) (l : lscale R) (x y : mat R) (d : nat) : mat R :=
  mk (mr x) (mr y) (fun i j => (get x i d - get y j d) * gaussk D (lsc l) (get x i) (get y j) / (lsc l d * lsc l d)).
Lemma Gmat_dgauss D l x y d i j : (i < mr x)%nat -> (j < mr y)%nat -> get (Gmat D l x y d) i j = - dgauss D (lsc l) (get x i) (get y j) d.
Proof. intros Hi Hj. unfold Gmat, dgauss. rewrite get_mk by auto. unfold Rdiv. ring. Qed.
Lemma grdx_R K D x y l d : mc x = D -> mc y = D -> lok D l -> (d < D)%nat -> K x y l = Ok (Kmat D l x y) ->
  grdx_K K x y l (Z.of_nat d + 1) = Ok (Gmat D l x y d).
Proof.
  intros Hx Hy Hl Hd HK. unfold grdx_K. cbv zeta. replace (Z.of_nat d + 1 - 1)%Z with (Z.of_nat d) by lia.
  unfold diffs_at. rewrite Hx, Hy, bok_refl, bdim_refl, pyidx_nat by auto. cbn [rbind]. rewrite HK. cbn [rbind].
  rewrite !bidx_lt by auto. unfold Kmat at 1. rewrite bc2_mk. cbn [rbind].
  assert (HL : lsq_at l (Z.of_nat d) = Ok (lsc l d * lsc l d)).
  { destruct l as [l0|ls]; [reflexivity|]. cbn in Hl. cbn [lsq_at]. rewrite (pyget_nat ls d 0) by lia. reflexivity. }
  rewrite HL. cbn [rbind]. f_equal. unfold divs. rewrite mmap1_mk. reflexivity.
Qed.
(** other which_dim values *)
Lemma grdx_out K D x y l w : mc x = D -> mc y = D -> (w < 1 - Z.of_nat D \/ Z.of_nat D < w)%Z -> grdx_K K x y l w = Err IndexError.
Proof.
  intros Hx Hy H. unfold grdx_K, diffs_at. cbv zeta. rewrite Hx, Hy, bok_refl, bdim_refl, pyidx_out by lia. reflexivity.
Qed.
