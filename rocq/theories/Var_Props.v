From Coq Require Import Reals List Arith Bool Lra Lia.
From Verif Require Import RBase PyList Mat_Model Mat_Proof Impacts_Model Impacts_Spec Impacts_Solve Impacts_Proof Var_Model Var_Spec Var_Proof.
Import ListNotations.
Open Scope R_scope.

(** ** C89: uncertainties of predictions *)
(** the covariance of a prediction is the one of the joint estimate of parameters and beta, although the code propagates the
    parameters (with beta following) and beta (at fixed parameters) one after the other *)
Theorem C89_joint : forall K fx fb J C bb rows d P, joint_sym K -> profiled_beta K fb J -> fit_cov K J fx C -> bb_of K fb bb ->
  exists v cov, expected_with_variance (k_n K) C bb rows (fun a => total_derivative (k_m K) J fx (d a) (P a)) P true = Ok (v, Some cov) /\
    (forall a b, (a < rows)%nat -> (b < rows)%nat -> joint_cov K fx fb (d a) (P a) (d b) (P b) (cov a b)) /\
    (forall a, (a < rows)%nat -> v a = cov a a).
Proof. exact expected_cov_joint. Qed.
(** which is unique at a minimum *)
Theorem C89_unique : forall K fx fb d p d' p' v w, joint_min K fx fb -> joint_cov K fx fb d p d' p' v -> joint_cov K fx fb d p d' p' w -> v = w.
Proof. exact joint_cov_unique. Qed.
(** a covariance matrix: symmetric, and no combination of bins has a negative variance; a combination has the variance of the
    combined prediction *)
Theorem C89_covariance_matrix : forall K fx fb J C bb rows d P, joint_sym K -> joint_min K fx fb -> profiled_beta K fb J -> fit_cov K J fx C -> bb_of K fb bb ->
  exists v cov, expected_with_variance (k_n K) C bb rows (fun a => total_derivative (k_m K) J fx (d a) (P a)) P true = Ok (v, Some cov) /\
    (forall a b, (a < rows)%nat -> (b < rows)%nat -> cov a b = cov b a) /\
    forall w, 0 <= sm rows (fun a => sm rows (fun b => w a * cov a b * w b)) /\
      joint_cov K fx fb (fun i => sm rows (fun a => w a * d a i)) (fun k => sm rows (fun a => w a * P a k))
                        (fun i => sm rows (fun a => w a * d a i)) (fun k => sm rows (fun a => w a * P a k)) (sm rows (fun a => sm rows (fun b => w a * cov a b * w b))).
Proof.
  intros K fx fb J C bb rows d P S M PJ FC BB. destruct (expected_cov_joint K fx fb J C bb rows d P S PJ FC BB) as (v & cov & E & HC & _).
  exists v, cov. split; auto. split; [intros a b Ha Hb; eapply joint_cov_sym; eauto|]. intros w.
  assert (X := joint_cov_combine K fx fb rows w d P cov HC M). split; auto. eapply joint_cov_nonneg; eauto.
Qed.
(** the variances do not depend on whether the covariance is computed *)
Theorem C89_same_variances : forall n C bb rows D P,
  match expected_with_variance n C bb rows D P true, expected_with_variance n C bb rows D P false with
  | Ok (v, Some cov), Ok (v', None) => (forall a, (a < rows)%nat -> v a = v' a /\ v a = cov a a)
  | Raise e, Raise e' => e = e'
  | _, _ => False
  end.
Proof. exact expected_var_same. Qed.
(** before the fit: independent parameters with the width of their constraint, and beta with its own width *)
Theorem C89_prefit : forall n m cw err msk B rows D P s2, (forall i, (i < n)%nat -> prefit_sigma2 cw err i (s2 i)) ->
  exists v, expected_with_variance n (prefit_covariance cw err) (Some (m, BDiag msk B)) rows D P false = Ok (v, None) /\
    forall a, (a < rows)%nat -> v a = sm n (fun i => D a i * D a i * s2 i) + sm m (fun k => if msk k then 0 else P a k * P a k / B k).
Proof. exact prefit_var_spec. Qed.
(** prefit variations are symmetric around the prediction and add up in quadrature to its variance (without beta) *)
Theorem C89_prefit_variations : forall n cw expected D rows a, (forall i, (i < n)%nat -> 0 <= cw i) -> (a < rows)%nat ->
  exists h v, (forall j, (j < n)%nat -> shifted_by (expected a) (prefit_variations n cw expected D a j) (h j)) /\
    expected_with_variance n (prefit_covariance cw 1) None rows D (fun _ _ => 0) false = Ok (v, None) /\ sm n (fun j => h j * h j) = v a.
Proof. exact prefit_variations_spec. Qed.
(** variations with correlations: the covariance of prediction and parameter over the uncertainty of the parameter, never larger
    than the uncertainty of the prediction *)
Theorem C89_correlated : forall n C expected D a j, covariance n C -> (j < n)%nat -> 0 < C j j ->
  exists h, shifted_by (expected a) (expected_variations n C expected D true a j) h /\ h * h <= quad n C (D a) /\ h * sqrt (C j j) = mv n C (D a) j.
Proof. exact correlated_spec. Qed.
(** the parameters are moved as a fit would with parameter j held one standard deviation away *)
Theorem C89_profiled_shift : forall n H C j s, sym n H -> posdef n H -> sym n C -> (forall i k, (i < n)%nat -> (k < n)%nat -> mm n H C i k = delta i k) -> (j < n)%nat ->
  0 < C j j /\ quad n H (fun k => s * C k j / C j j) = s * s / C j j /\
  forall x, x j = s -> s * s / C j j <= quad n H x /\ (quad n H x = s * s / C j j -> forall k, (k < n)%nat -> x k = s * C k j / C j j).
Proof. exact column_least. Qed.

(** one bin with prediction x + beta, data, constraint and penalty of unit weight *)
Definition ex_K : curvature := {| k_n := 1; k_m := 1; k_Dxx := fun _ _ => 1; k_Dxb := fun _ _ => 1; k_Dbb := fun _ _ => 1; k_cw := fun _ => 1; k_s := fun _ => 1 |}.
Definition ex_J : nat -> nat -> R := fun _ _ => - (1 / 2).
Definition ex_C : nat -> nat -> R := fun _ _ => 2 / 3.
Definition ex_bb : option (nat * beta_curv) := Some (1%nat, BDiag (fun _ => false) (fun _ => 2)).
Example C89_joint_ex :
  joint_sym ex_K /\ profiled_beta ex_K (fun _ => true) ex_J /\ fit_cov ex_K ex_J (fun _ => true) ex_C /\ bb_of ex_K (fun _ => true) ex_bb /\
  exists v cov, expected_with_variance 1 ex_C ex_bb 1 (fun a => total_derivative 1 ex_J (fun _ => true) (fun _ => 1) (fun _ => 1)) (fun _ _ => 1) true = Ok (v, Some cov) /\
    v O = 2 / 3 /\ joint_cov ex_K (fun _ => true) (fun _ => true) (fun _ => 1) (fun _ => 1) (fun _ => 1) (fun _ => 1) (2 / 3).
Proof.
  split; [split; intros; unfold k_Hxx, k_Hbb; cbn; unfold delta; rewrite (Nat.eqb_sym i j) || rewrite (Nat.eqb_sym k l); reflexivity|].
  split; [|split; [|split]].
  - unfold profiled_beta. intros k i Hk Hi. cbn [k_n k_m ex_K] in *. assert (k = O) by lia. assert (i = O) by lia. subst. unfold k_Hbb, ex_J, delta. cbn [sm k_Dbb k_s k_Dxb ex_K Nat.eqb]. lra.
  - unfold fit_cov. intros k i Hk Hi. cbn [k_n k_m ex_K] in *. assert (k = O) by lia. assert (i = O) by lia. subst. cbn [andb Nat.eqb].
    unfold k_prof, k_Hxx, ex_J, ex_C, delta. cbn [sm k_Dxx k_cw k_Dxb k_m ex_K Nat.eqb]. lra.
  - cbn [bb_of ex_bb]. split; [reflexivity|]. cbn [beta_curv_of]. intros k Hk. cbn [k_m ex_K] in Hk. assert (k = O) by lia. subst. split; [reflexivity|]. intros _.
    split; [lra|]. split; [unfold k_Hbb, delta; cbn [k_Dbb k_s ex_K Nat.eqb]; lra|]. intros l Hl N. cbn [k_m ex_K] in Hl. lia.
  - do 2 eexists. split; [reflexivity|]. split.
    + cbn [nbeta ex_bb]. unfold mv, qrow, total_derivative, ex_J, ex_C. cbn [sm nth]. lra.
    + exists (fun _ => 1 / 3), (fun _ => 1 / 3). split; [split; intros i Hi; cbn [k_n k_m ex_K] in *; assert (i = O) by lia; subst; unfold k_Hxx, k_Hbb, delta; cbn [sm k_n k_m k_Dxx k_cw k_Dxb k_Dbb k_s ex_K Nat.eqb]; lra|].
      cbn [sm k_n k_m ex_K]. lra.
Qed.
Example C89_joint_min_ex : joint_min ex_K (fun _ => true) (fun _ => true).
Proof.
  intros zx zb _ _ H. unfold joint_quad, k_Hxx, k_Hbb, delta. cbn [sm k_n k_m k_Dxx k_cw k_Dxb k_Dbb k_s ex_K Nat.eqb].
  assert (N : zx O <> 0 \/ zb O <> 0) by (destruct H as [(i & Hi & N)|(i & Hi & N)]; cbn [k_n k_m ex_K] in Hi; assert (i = O) by lia; subst; auto).
  set (a := zx O) in *. set (b := zb O) in *. enough (0 < a * a + b * b + (a + b) * (a + b)) by lra.
  assert (S := Rle_0_sqr (a + b)). assert (Sa := Rle_0_sqr a). assert (Sb := Rle_0_sqr b).
  destruct N as [N|N]; apply Rsqr_pos_lt in N; unfold Rsqr in *; lra.
Qed.
Example C89_prefit_ex : prefit_sigma2 (fun i => match i with O => 4 | _ => 0 end) 3 0 (1 / 4) /\ prefit_sigma2 (fun i => match i with O => 4 | _ => 0 end) 3 1 9.
Proof. unfold prefit_sigma2. split; split; intros; lra. Qed.
Example C89_prefit_variations_ex : prefit_variations 1 (fun _ => 1 / 4) (fun _ => 10) (fun _ _ => 3) 0 0 = Some (10 - 3 * 2, 10 + 3 * 2).
Proof.
  unfold prefit_variations, expected_variations, variation_shift, prefit_covariance, prefit_variance, tsqrt. cbn [Nat.eqb]. rewrite Reqb_false by lra. rewrite Rltb_false by lra.
  replace (/ (1 / 4)) with (2 * 2) by field. rewrite sqrt_square by lra. reflexivity.
Qed.

(** a frozen parameter has no uncertainty: its variation with correlations is 0/0 *)
Theorem C89_correlated_frozen_refuted : exists n C expected D j, covariance n C /\ (j < n)%nat /\ C j j = 0 /\
  expected_variations n C expected D true 0 j = None /\ expected_variations n C expected D false 0 j = Some (expected O, expected O).
Proof.
  exists 2%nat, (fun i j => if Nat.eqb i 0 then if Nat.eqb j 0 then 1 else 0 else 0), (fun _ => 5), (fun _ _ => 1), 1%nat. split; [split|].
  - intros i j Hi Hj. destruct i as [|[|]], j as [|[|]]; try reflexivity; lia.
  - intros x. unfold quad, mv. cbn. assert (S := Rle_0_sqr (x O)). unfold Rsqr in S. lra.
  - split; [lia|]. split; [reflexivity|]. unfold expected_variations, variation_shift, tsqrt. cbn [Nat.eqb]. rewrite Rltb_false by lra. rewrite sqrt_0, Reqb_true by auto. split; auto.
    f_equal. f_equal; ring.
Qed.
(** after the fit the variations are still made one parameter at a time: they do not add up to the variance when parameters are correlated *)
Theorem C89_uncorrelated_postfit_refuted : exists n C expected D v h, covariance n C /\
  (forall j, (j < n)%nat -> shifted_by (expected O) (expected_variations n C expected D false 0 j) (h j)) /\
  expected_with_variance n C None 1 D (fun _ _ => 0) false = Ok (v, None) /\ sm n (fun j => h j * h j) < v O.
Proof.
  exists 2%nat, (fun i j => if Nat.eqb i j then 1 else 1 / 2), (fun _ => 5), (fun _ _ => 1). eexists. exists (fun _ => 1). split; [|split; [|split; [reflexivity|]]].
  - split.
    + intros i j Hi Hj. rewrite (Nat.eqb_sym i j). auto.
    + intros x. unfold quad, mv. cbn. set (a := x O). set (b := x 1%nat). enough (0 <= a * a + a * b + b * b) by lra. assert (S := Rle_0_sqr (a + b)). assert (Sa := Rle_0_sqr a). assert (Sb := Rle_0_sqr b). unfold Rsqr in *. lra.
  - intros j Hj. unfold expected_variations, variation_shift, tsqrt. rewrite Nat.eqb_refl. rewrite Rltb_false by lra. rewrite sqrt_1. do 2 eexists. split; [reflexivity|]. lra.
  - cbn. lra.
Qed.

Print Assumptions C89_joint.
Print Assumptions C89_covariance_matrix.
Print Assumptions C89_profiled_shift.
