(** Property C115. *)
From Coq Require Import List Reals Arith Bool Lia Lra.
From Verif Require Import PyList RBase BBStat_Model Mat_Model Mat_Proof Impacts_Model Impacts_Solve Bdiag_Model Bdiag_Proof Curv_Model Curv_Spec Curv_Proof.
Import ListNotations.
Local Open Scope R_scope.

(** The matrix of the model is the derivative of the gradient of the loss. *)
Theorem C115_hessian : forall l B beta, (l = Poisson -> forall a, 0 < nexp_at B beta a) -> (l = Chisq -> forall a, b_var B a <> 0) ->
  jacobian_at (b_m B) (grad_at l B) beta (hess_at l B beta).
Proof. exact hess_jacobian. Qed.

(** With one nuisance per bin the uncertainty is that of the curvature of the likelihood. *)
Theorem C115_lite : forall l B beta p, masks_off B p ->
  (forall k j, (k < b_m B)%nat -> (j < b_m B)%nat -> b_bin B k = b_bin B j -> k = j) ->
  (forall k, (k < b_m B)%nat -> 0 < b_k B k \/ p k = 0) -> (forall a, 0 <= data_curvature l B beta a) ->
  exists v, beta_part None true l B beta p = Ok v /\ variance_of (b_m B) (hess_at l B beta) p v.
Proof. exact part_lite. Qed.

(** Without profiling it is that of the constraints, for any number of nuisances per bin and in covariance fits. *)
Theorem C115_prefit : forall covfit l B beta p, masks_off B p -> (forall k, (k < b_m B)%nat -> 0 < b_k B k \/ p k = 0) ->
  exists v, beta_part covfit false l B beta p = Ok v /\ variance_of (b_m B) (fun k j => if Nat.eqb k j then b_k B k else 0) p v.
Proof. exact part_prefit. Qed.

(** Covariance fits use the full matrix. *)
Theorem C115_covariance : forall full l B beta p v, beta_part (Some full) true l B beta p = Ok v -> variance_of (b_m B) full p v.
Proof. exact part_covfit. Qed.

(** With several nuisances in a bin: what is correct for the yield of a bin, what is computed, and that the latter is too small. *)
Theorem C115_full_exact : forall l B beta a, (forall k, (k < b_m B)%nat -> 0 < b_k B k \/ b_slope B k = 0) -> 0 <= data_curvature l B beta a ->
  variance_of (b_m B) (hess_at l B beta) (total_of (b_bin B) (b_slope B) a) (spread B a / (1 + data_curvature l B beta a * spread B a)).
Proof. exact exact_total. Qed.
Theorem C115_full_code : forall l B beta a, masks_off B (total_of (b_bin B) (b_slope B) a) ->
  beta_part None true l B beta (total_of (b_bin B) (b_slope B) a) =
  Ok (sm (b_m B) (fun k => let e := total_of (b_bin B) (b_slope B) a k in e * (e / (b_k B k + data_curvature l B beta a * e * yield_slope B a)))).
Proof. exact code_total. Qed.
Theorem C115_full_too_small : forall l B beta a, masks_off B (total_of (b_bin B) (b_slope B) a) ->
  (forall k, (k < b_m B)%nat -> (0 < b_k B k \/ b_slope B k = 0) /\ 0 <= b_slope B k) -> 0 <= data_curvature l B beta a ->
  exists v w, beta_part None true l B beta (total_of (b_bin B) (b_slope B) a) = Ok v /\
    variance_of (b_m B) (hess_at l B beta) (total_of (b_bin B) (b_slope B) a) w /\ v <= w.
Proof. exact too_small. Qed.

(** They agree when all entries of the bin have the same ratio of slope and curvature, and only then. *)
Theorem C115_full_agree : forall l B beta a r, masks_off B (total_of (b_bin B) (b_slope B) a) ->
  (forall k, (k < b_m B)%nat -> (0 < b_k B k \/ b_slope B k = 0) /\ 0 <= b_slope B k) -> 0 <= data_curvature l B beta a -> 0 <= r ->
  (forall k, (k < b_m B)%nat -> b_bin B k = a -> b_slope B k <> 0 -> b_slope B k / b_k B k = r) ->
  exists v, beta_part None true l B beta (total_of (b_bin B) (b_slope B) a) = Ok v /\ variance_of (b_m B) (hess_at l B beta) (total_of (b_bin B) (b_slope B) a) v.
Proof. exact agree. Qed.
Theorem C115_full_differ : forall l B beta a i j, masks_off B (total_of (b_bin B) (b_slope B) a) ->
  (forall k, (k < b_m B)%nat -> (0 < b_k B k \/ b_slope B k = 0) /\ 0 <= b_slope B k) -> 0 < data_curvature l B beta a ->
  (i < b_m B)%nat -> (j < b_m B)%nat -> b_bin B i = a -> b_bin B j = a -> 0 < b_slope B i -> 0 < b_slope B j -> b_slope B i / b_k B i <> b_slope B j / b_k B j ->
  exists v w, beta_part None true l B beta (total_of (b_bin B) (b_slope B) a) = Ok v /\
    variance_of (b_m B) (hess_at l B beta) (total_of (b_bin B) (b_slope B) a) w /\ v < w.
Proof. exact disagree. Qed.

(** the variance is unique when the curvature is symmetric and positive *)
Lemma variance_unique m H p v w : sym m H -> posdef m H -> variance_of m H p v -> variance_of m H p w -> v = w.
Proof.
  intros S P (z & Z & ->) (z' & Z' & ->).
  apply sm_ext. intros k Hk. f_equal.
  destruct (nonzero_dec m (fun i => z i - z' i)) as [N|N].
  - exfalso. assert (X := P _ N). unfold quad, vdot in X. rewrite sm_0 in X; [lra|]. intros i Hi. unfold mv.
    rewrite (sm_ext _ _ (fun j => H i j * z j - H i j * z' j)) by (intros; ring). rewrite sm_minus.
    assert (A := Z i Hi). assert (B := Z' i Hi). unfold mv in A, B. rewrite A, B. ring.
  - specialize (N k Hk). cbn beta in N. lra.
Qed.

(** Two processes in one bin of three observed events, chi-square with unit variance, statistics of 1 and 2. *)
Definition two : betas :=
  mkB 2 (fun _ => O) (fun _ => 1) (fun k => match k with O => 1 | _ => 2 end) (fun _ => 1) (fun _ => false) false (fun _ => 0) (fun _ => 3) (fun _ => 1).
Lemma two_masks p : masks_off two p. Proof. intros _ k _ H. discriminate H. Qed.
Lemma two_curv beta a : data_curvature Chisq two beta a = 1. Proof. unfold data_curvature, ddln, two. cbn [b_var]. field. Qed.
Example two_code : beta_part None true Chisq two (fun _ => 1) (total_of (b_bin two) (b_slope two) 0) = Ok (7 / 12).
Proof.
  rewrite C115_full_code by apply two_masks. rewrite two_curv. f_equal. unfold yield_slope, total_of, two. cbn [b_m b_bin b_slope b_k sm Nat.eqb]. cbn zeta. field.
Qed.
Example two_exact : variance_of 2 (hess_at Chisq two (fun _ => 1)) (total_of (b_bin two) (b_slope two) 0) (3 / 5).
Proof.
  assert (X := C115_full_exact Chisq two (fun _ => 1) 0). rewrite two_curv in X.
  replace (3 / 5) with (spread two 0 / (1 + 1 * spread two 0)).
  - apply X; [|lra]. intros [|k] _; left; cbn [two b_k]; lra.
  - unfold spread, total_of, two. cbn [b_m b_bin b_slope b_k sm Nat.eqb]. field.
Qed.
Lemma two_hess k j : (k < 2)%nat -> (j < 2)%nat -> hess_at Chisq two (fun _ => 1) k j = 1 + (if Nat.eqb k j then match k with O => 1 | _ => 2 end else 0).
Proof. intros _ _. unfold hess_at. rewrite two_curv. unfold same_bin, two. cbn [b_bin b_slope b_k Nat.eqb]. ring. Qed.
Theorem C115_full_refuted : exists l B beta p v, masks_off B p /\ (forall k, (k < b_m B)%nat -> 0 < b_k B k) /\ (forall a, 0 <= data_curvature l B beta a) /\
  beta_part None true l B beta p = Ok v /\ ~ variance_of (b_m B) (hess_at l B beta) p v.
Proof.
  exists Chisq, two, (fun _ => 1), (total_of (b_bin two) (b_slope two) 0), (7 / 12).
  split; [apply two_masks|]. split; [intros [|k] _; cbn [two b_k]; lra|]. split; [intros a; rewrite two_curv; lra|]. split; [apply two_code|].
  intros V. assert (X : 7 / 12 = 3 / 5); [|lra]. apply (variance_unique 2 (hess_at Chisq two (fun _ => 1)) (total_of (b_bin two) (b_slope two) 0)); [| |exact V|exact two_exact].
  - intros i j Hi Hj. rewrite !two_hess by auto. destruct i as [|[|i]], j as [|[|j]]; try lia; cbn [Nat.eqb]; lra.
  - intros x (i & Hi & N). unfold quad, vdot, mv. cbn [sm]. rewrite !two_hess by lia. cbn [Nat.eqb].
    assert (Q : 0 < x O * x O + x 1%nat * x 1%nat + x 1%nat * x 1%nat + (x O + x 1%nat) * (x O + x 1%nat)).
    { assert (A := Rle_0_sqr (x O)). assert (B := Rle_0_sqr (x 1%nat)). assert (C := Rle_0_sqr (x O + x 1%nat)). unfold Rsqr in *.
      assert (P := Rsqr_pos_lt _ N). unfold Rsqr in P. destruct i as [|[|i]]; [lra|lra|lia]. }
    lra.
Qed.

(** For the yield of one process the factor is not bounded: two equal processes, precise data. *)
Definition pair_of (d : R) : betas := mkB 2 (fun _ => O) (fun _ => 1) (fun _ => 1) (fun _ => 1) (fun _ => false) false (fun _ => 0) (fun _ => 2) (fun _ => / d).
Lemma pair_hess d k j : 0 < d -> hess_at Chisq (pair_of d) (fun _ => 1) k j = d + (if Nat.eqb k j then 1 else 0).
Proof. intros D. unfold hess_at, same_bin, data_curvature, ddln, pair_of. cbn [b_bin b_var b_slope b_k Nat.eqb]. rewrite Rinv_inv. ring. Qed.
Theorem C115_process_refuted : forall c, 0 < c -> exists l B beta p v w, masks_off B p /\ (forall k, (k < b_m B)%nat -> 0 < b_k B k) /\
  (forall a, 0 <= data_curvature l B beta a) /\ beta_part None true l B beta p = Ok v /\ variance_of (b_m B) (hess_at l B beta) p w /\ 0 < v /\ c * v < w.
Proof.
  intros c C. exists Chisq, (pair_of c), (fun _ => 1), (delta 0), (1 / (1 + 2 * c)), ((1 + c) / (1 + 2 * c)).
  assert (M : masks_off (pair_of c) (delta 0)) by (intros _ k _ H; discriminate H).
  split; [auto|]. split; [intros k _; cbn [pair_of b_k]; lra|]. split.
  { intros a. unfold data_curvature, ddln, pair_of. cbn [b_var]. rewrite Rinv_inv. lra. }
  split; [|split; [|split]].
  - rewrite (part_diag None true Chisq (pair_of c) (fun _ => 1) (delta 0) _ M eq_refl). f_equal. change (b_m (pair_of c)) with 2%nat. cbn [sm].
    unfold tape_gradient. cbn [sm]. rewrite !pair_hess by auto. unfold delta. cbn [Nat.eqb]. field. lra.
  - exists (fun k => match k with O => (1 + c) / (1 + 2 * c) | _ => - c / (1 + 2 * c) end). change (b_m (pair_of c)) with 2%nat. split.
    + intros k Hk. unfold mv. cbn [sm]. rewrite !pair_hess by auto. destruct k as [|[|k]]; try lia; unfold delta; cbn [Nat.eqb]; field; lra.
    + cbn [sm]. unfold delta. cbn [Nat.eqb]. ring.
  - apply Rdiv_lt_0_compat; lra.
  - unfold Rdiv. rewrite Rmult_1_l. apply Rmult_lt_compat_r; [apply Rinv_0_lt_compat|]; lra.
Qed.

(** the total of the same two processes is right: 2 / (1 + 2 d) *)
Example pair_total : exists v, beta_part None true Chisq (pair_of 4) (fun _ => 1) (total_of (b_bin (pair_of 4)) (b_slope (pair_of 4)) 0) = Ok v /\
  variance_of 2 (hess_at Chisq (pair_of 4) (fun _ => 1)) (total_of (b_bin (pair_of 4)) (b_slope (pair_of 4)) 0) v.
Proof.
  apply (C115_full_agree Chisq (pair_of 4) (fun _ => 1) 0 1).
  - intros _ k _ H. discriminate H.
  - intros k _. cbn [pair_of b_k b_slope]. lra.
  - unfold data_curvature, ddln, pair_of. cbn [b_var]. rewrite Rinv_inv. lra.
  - lra.
  - intros k _ _ _. cbn [pair_of b_k b_slope]. lra.
Qed.

(** one nuisance per bin, two bins, one of them masked; Poisson *)
Definition lite2 : betas :=
  mkB 2 (fun k => k) (fun k => match k with O => 4 | _ => 0 end) (fun k => match k with O => 9 | _ => 0 end) (fun _ => 1) (fun k => Nat.eqb k 1) false
    (fun a => match a with O => 0 | _ => 5 end) (fun _ => 2) (fun _ => 1).
Example lite_value : beta_part None true Poisson lite2 (fun _ => 1) (total_of (b_bin lite2) (b_slope lite2) 0) = Ok (16 / 11).
Proof.
  rewrite C115_full_code.
  - f_equal. unfold data_curvature, nexp_at, yield_slope, total_of, lite2. cbn [b_m b_bin b_slope b_k b_base b_nobs b_var sm Nat.eqb]. cbn zeta.
    unfold ddln. destruct (Reqb_spec 2 0); [lra|]. rewrite Rmult_0_l. field.
  - intros _ [|[|k]] Hk; unfold lite2, total_of; cbn [b_mask b_bin b_slope Nat.eqb b_m] in *; auto; try discriminate; intros; lia.
Qed.
(** before the fit *)
Example prefit_value : beta_part None false Poisson lite2 (fun _ => 1) (total_of (b_bin lite2) (b_slope lite2) 0) = Ok (16 / 9).
Proof.
  unfold beta_part, pd2ldbeta2, tape_gradient, total_of, lite2, obs_q, rbind. cbn [b_additive b_mask b_m b_bin b_slope b_k sm Nat.eqb]. f_equal. field.
Qed.
(** a covariance fit with correlated bins *)
Example covariance_value : exists v, beta_part (Some (fun k j => if Nat.eqb k j then 2 else 1)) true Chisq two (fun _ => 1) (fun _ => 1) = Ok v.
Proof.
  destruct (gsolve_regular 2 (fun k j => if Nat.eqb k j then 2 else 1) (fun _ => 1)) as (q & E).
  - intros x Hx. assert (A := Hx 0%nat ltac:(lia)). assert (B := Hx 1%nat ltac:(lia)). unfold mv in A, B. cbn [sm Nat.eqb] in A, B.
    intros [|[|i]] Hi; try lia; lra.
  - unfold beta_part, pd2ldbeta2, obs_q. change (b_m two) with 2%nat. rewrite E. cbn [rbind]. eexists. reflexivity.
Qed.

Print Assumptions C115_hessian.
Print Assumptions C115_lite.
Print Assumptions C115_prefit.
Print Assumptions C115_covariance.
Print Assumptions C115_full_exact.
Print Assumptions C115_full_code.
Print Assumptions C115_full_too_small.
Print Assumptions C115_full_refuted.
Print Assumptions C115_full_agree.
Print Assumptions C115_full_differ.
Print Assumptions C115_process_refuted.
