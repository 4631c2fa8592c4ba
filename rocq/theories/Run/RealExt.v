(** An environment over the reals that meets all contracts of Spec/Contracts.v at once, so that no theorem that assumes them
    is vacuous.  Matrix inversion and the transport solvers are picked by Hilbert's epsilon (their existence is proved). *)
From Coq Require Import String List ZArith Reals Lra Lia Bool ClassicalEpsilon.
From Verif Require Import Base.Num Base.Py Base.Arr Lib.ArrLemmas Model.Ext Model.DPFC.
From Verif Require Import Spec.RealSpec Spec.Contracts Spec.TotalSpec Lib.RSum Lib.LP Lib.PlanExists.
Import ListNotations.
Local Open Scope R_scope.

Definition real_inv (A : mat R) : option (nat -> nat -> R) :=
  match excluded_middle_informative (exists h, inverse_of (mr A) (get A) h) with
  | left H => Some (proj1_sig (constructive_indefinite_description _ H))
  | right _ => None
  end.
Definition real_emd (a b : list R) (C : mat R) : nat -> nat -> R :=
  epsilon (inhabits (fun _ _ => 0)) (optimal (List.length a) (hist a) (hist b) (get C)).

(** the random draws are fixed sequences: "normals" 0, sc, 2sc, ... along the columns, "uniforms" lo + (hi-lo)/(i+2) *)
Definition RealExt : Ext R nat := {|
  x_normal := fun s sc r c => (fun i j => sc * INR (i + j), Datatypes.S s);
  x_uniform := fun s lo hi m => (Ok (fun i => lo + (hi - lo) / INR (i + 2)), Datatypes.S s);
  x_tuniform := fun s lo hi m => (fun i d => nth d lo 0 + (nth d hi 0 - nth d lo 0) / INR (i + 2), Datatypes.S s);
  x_inv := real_inv; x_emd := real_emd; x_otemd := real_emd |}.

Lemma frac01 i : 0 <= / INR (i + 2) <= 1.
Proof.
  assert (1 <= INR (i + 2)). { rewrite plus_INR. cbn. pose proof (pos_INR i). lra. }
  split; [left; apply Rinv_0_lt_compat; lra|]. rewrite <- Rinv_1. apply Rinv_le_contravar; lra.
Qed.
Lemma real_emd_ok : emd_spec real_emd.
Proof.
  intros n a b C La Lb RC CC Ha Hb Hs Hc. subst n. unfold real_emd. apply epsilon_spec. now apply optimal_exists.
Qed.
Theorem contracts_consistent : inv_contract RealExt /\ emd_contract RealExt /\ otemd_contract RealExt /\ uniform_in_range RealExt /\
  tuniform_in_range RealExt /\ no_overflow RealExt.
Proof.
  split; [|split; [exact real_emd_ok|split; [exact real_emd_ok|split; [|split]]]].
  - intros A _. cbn [RealExt x_inv]. unfold real_inv. destruct (excluded_middle_informative _) as [H|H]; [|exact H].
    destruct (constructive_indefinite_description _ H) as (h & Hh). exact Hh.
  - intros s lo hi m h s' H i Hi. cbn in H. injection H as <- <-. pose proof (frac01 i) as (F1 & F2). unfold Rdiv.
    unfold Rmin, Rmax. destruct (Rle_dec lo hi); nra.
  - intros s lo hi m i d Hi Hd Hle. cbn. pose proof (frac01 i) as (F1 & F2). unfold Rdiv. nra.
  - intros s lo hi m. cbn. eauto.
Qed.
Lemma emd_contract_plans {S} (E : Ext R S) : emd_contract E -> emd_plans (x_emd E).
Proof. intros H n a b C H1 H2 H3 H4 H5 H6 H7 H8. now apply (H n a b C). Qed.

(** a concrete problem in the plane: f(x,t) = -x, g = 1/2, U(x,t) = (x_1 - sin t)^2, from (0,1) to (1,2), 3 particles, 2 inducing points,
    20 steps *)
Definition rf : callable R := {| call1 := fun _ => Err TypeError; call2 := fun x _ => Ok (mopp x) |}.
Definition rU : callable R := {| call1 := fun _ => Err TypeError; call2 := fun x t => Ok (vec (map (fun n => (get x 1 n - sin t) ^ 2) (seq 0 (mc x)))) |}.
Definition real_problem (rw brown : bool) : params R := {|
  p_t1 := 0; p_t2 := 1/50; p_y1 := [0; 1]; p_y2 := [1; 2]; p_f := rf; p_g := mk 1 1 (fun _ _ => 1/2); p_N := 3; p_M := 2;
  p_reweight := rw; p_U := Some rU; p_dens_est := "nonparametric"; p_reject := true; p_kern := "RBF"; p_f_true := Some rf; p_brown := brown; p_det := true |}.
Lemma real_problem_posed rw brown : well_posed (real_problem rw brown).
Proof.
  constructor; cbn; auto; try lia.
  - intros x t H1 H2. eexists. split; [reflexivity|]. cbn. auto.
  - intros _ x t H1 H2. eexists. split; [reflexivity|]. split; [reflexivity|]. cbn [vec mk mc]. now rewrite map_length, seq_length.
  - intros _ _ x t H1 H2. eexists. split; [reflexivity|]. cbn. auto.
Qed.
