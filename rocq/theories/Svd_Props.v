(** Properties of the SVD regularisation penalty. *)
From Coq Require Import Reals List Arith ZArith Bool Lia Lra.
From Verif Require Import RBase PyList Shape Map_Model Map_Spec Map_Collect Map_Perm Map_Rules Map_Merge Svd_Model Svd_Proof Ws_Proof.
Import ListNotations.
Local Open Scope nat_scope.

Ltac run := lazy -[IZR Rplus Rmult Rminus Rdiv Rinv Ropp Rabs Reqb Rleb Rltb INR].
Ltac bins := repeat first [rewrite (Reqb_true 0 0) by reflexivity | rewrite Reqb_false by lra].

(** the squared Laplacian (reflecting edges) of the relative prediction, 1 where the nominal prediction is empty *)
Theorem svd_penalty_sum n0 n : 1 <= List.length (t_shape n0) <= 3 ->
  penalty n0 n = sumR (map (fun i => laplace (t_shape n0) (relative n0 n) i * laplace (t_shape n0) (relative n0 n) i)%R (all_idx (t_shape n0))).
Proof. exact (penalty_sum n0 n). Qed.
Theorem svd_penalty_nonneg n0 n : 1 <= List.length (t_shape n0) <= 3 -> (0 <= penalty n0 n)%R.
Proof. exact (penalty_nonneg n0 n). Qed.
(** exactly the flat relative predictions are not penalised *)
Theorem svd_penalty_zero n0 n : 1 <= List.length (t_shape n0) <= 3 ->
  (penalty n0 n = 0%R <-> forall i j, in_shape (t_shape n0) i -> in_shape (t_shape n0) j -> relative n0 n i = relative n0 n j).
Proof. exact (penalty_zero n0 n). Qed.
Theorem svd_penalty_common_scale n0 n s : 1 <= List.length (t_shape n0) <= 3 -> s <> 0%R ->
  penalty (map_t (fun v => s * v)%R n0) (map_t (fun v => s * v)%R n) = penalty n0 n.
Proof. exact (penalty_scale n0 n s). Qed.
Theorem svd_penalty_quadratic n0 n s : 1 <= List.length (t_shape n0) <= 3 -> (forall i, in_shape (t_shape n0) i -> t_at n0 i <> 0%R) ->
  penalty n0 (map_t (fun v => s * v)%R n) = (s * s * penalty n0 n)%R.
Proof. exact (penalty_quadratic n0 n s). Qed.
(** missing for the full claim: nominal predictions with an empty bin, where it is false unless the factor is one *)
Theorem svd_penalty_proportional_partial n0 n s : 1 <= List.length (t_shape n0) <= 3 -> (forall i, in_shape (t_shape n0) i -> t_at n i = (s * t_at n0 i)%R) ->
  (s = 1%R \/ (forall i, in_shape (t_shape n0) i -> t_at n0 i <> 0%R)) -> penalty n0 n = 0%R.
Proof. exact (penalty_proportional n0 n s). Qed.
(** and precisely then: with an occupied and an empty nominal bin only the factor one is free of penalty *)
Theorem svd_penalty_proportional_empty n0 n s i j : 1 <= List.length (t_shape n0) <= 3 -> (forall i, in_shape (t_shape n0) i -> t_at n i = (s * t_at n0 i)%R) ->
  in_shape (t_shape n0) i -> in_shape (t_shape n0) j -> t_at n0 i = 0%R -> t_at n0 j <> 0%R -> (penalty n0 n = 0%R <-> s = 1%R).
Proof.
  intros L P I J Z N. split; [|intros ->; apply (penalty_proportional n0 n 1); auto]. intros E. rewrite penalty_zero in E by auto. specialize (E i j I J). unfold relative in E. rewrite Reqb_true in E by auto. rewrite Reqb_false in E by auto. rewrite P in E by auto. rewrite E. field. auto.
Qed.
Theorem svd_divisor_nonzero n0 i : t_at (safe n0) i <> 0%R.
Proof. exact (safe_nonzero n0 i). Qed.
(** the prediction in an empty nominal bin does not matter *)
Theorem svd_penalty_empty_bins n0 n n' : 1 <= List.length (t_shape n0) <= 3 -> (forall i, in_shape (t_shape n0) i -> t_at n0 i <> 0%R -> t_at n' i = t_at n i) -> penalty n0 n' = penalty n0 n.
Proof. intros L H. apply penalty_ext; auto. intros i I. unfold relative. destruct (Reqb_spec (t_at n0 i) 0); auto. rewrite H; auto. Qed.
Theorem svd_accepts nchannels shape d : svd_dims nchannels shape = Ok d <-> nchannels <= 1 /\ d = List.length shape /\ 1 <= d <= 3.
Proof.
  unfold svd_dims. destruct (Nat.ltb_spec 1 nchannels); [split; [discriminate|lia]|]. destruct (List.length shape) as [|[|[|[|m]]]]; split; try discriminate; try (intros [= <-]; lia); intros (_ & E & B); try lia; subst; auto.
Qed.

(** the penalty of a prediction relative to the initial one, both through the mapping *)
Definition relative_at (shape : list nat) (a b : list R) (i : list nat) : R :=
  if Reqb (nth (ravel shape i) a 0%R) 0 then 1%R else (nth (ravel shape i) b 0 / nth (ravel shape i) a 0)%R.
Theorem svd_of_mapping flat_of shape initial observables a b : flat_of initial = Ok a -> flat_of observables = Ok b -> List.length a = prodn shape -> List.length b = prodn shape -> 1 <= List.length shape <= 3 ->
  exists v, svd_penalty flat_of shape initial observables = Ok v /\
    v = sumR (map (fun i => laplace shape (relative_at shape a b) i * laplace shape (relative_at shape a b) i)%R (all_idx shape)) /\
    (v = 0%R <-> forall i j, in_shape shape i -> in_shape shape j -> relative_at shape a b i = relative_at shape a b j).
Proof.
  intros A B La Lb D. destruct (reshape_ok a shape La) as (n0 & R0). destruct (reshape_ok b shape Lb) as (n & R1). pose proof (reshape_at _ _ _ R0) as (S0 & _ & V0). pose proof (reshape_at _ _ _ R1) as (S1 & _ & V1).
  assert (Q : forall i, in_shape shape i -> relative n0 n i = relative_at shape a b i). { intros i I. unfold relative, relative_at. rewrite V0, V1 by auto. auto. }
  exists (penalty n0 n). split; [unfold svd_penalty; rewrite A; cbn [rbind]; rewrite R0; cbn [rbind]; rewrite B; cbn [rbind]; rewrite R1; auto|]. split.
  - rewrite penalty_sum by (rewrite S0; auto). rewrite S0. f_equal. apply map_ext_in. intros i I. rewrite all_idx_In in I. assert (X : laplace shape (relative n0 n) i = laplace shape (relative_at shape a b) i) by (rewrite <- S0; apply laplace_ext; rewrite S0; auto). rewrite X. auto.
  - rewrite penalty_zero by (rewrite S0; auto). rewrite S0. split; intros H i j I J; [rewrite <- !Q by auto|rewrite !Q by auto]; auto.
Qed.
Example svd_mapping_example : exists v, svd_penalty (fun t => Ok (flat t)) [2] (of_list [1; 2]%R) (of_list [1; 6]%R) = Ok v /\ v = 8%R.
Proof. eexists. split; [reflexivity|]. run. bins. lra. Qed.

(** two bins, relative prediction 1, 3: curvatures 2 and -2 *)
Example svd_two_bins : penalty (of_list [1; 2]%R) (of_list [1; 6]%R) = 8%R.
Proof. run. bins. lra. Qed.
(** a 2x2 channel *)
Example svd_square : penalty (mkT [2; 2] (fun _ => 1)%R) (mkT [2; 2] (fun i => if list_eq_dec Nat.eq_dec i [0; 0]%nat then 2 else 1)%R) = 6%R.
Proof. run. bins. lra. Qed.
(** doubling the whole prediction is penalised when a nominal bin is empty *)
Theorem svd_penalty_proportional_refuted : exists n0 n, (forall i, t_at n i = (2 * t_at n0 i)%R) /\ t_shape n0 = [2] /\ penalty n0 n = 2%R.
Proof.
  exists (mkT [2] (fun i => if list_eq_dec Nat.eq_dec i [0]%nat then 1 else 0)%R), (mkT [2] (fun i => 2 * if list_eq_dec Nat.eq_dec i [0]%nat then 1 else 0)%R).
  split; [|split]; auto. run. bins. lra.
Qed.
(** scaling the prediction alone changes the penalty *)
Theorem svd_penalty_prediction_scale_refuted : exists n0 n, (forall i, t_at n0 i <> 0%R) /\ t_shape n0 = [2] /\ penalty n0 (map_t (fun v => 2 * v)%R n) <> penalty n0 n.
Proof.
  exists (mkT [2] (fun _ => 1)%R), (mkT [2] (fun i => if list_eq_dec Nat.eq_dec i [0]%nat then 1 else 2)%R). split; [intros; cbn; lra|]. split; auto. run. bins. lra.
Qed.
Print Assumptions svd_penalty_sum.
Print Assumptions svd_penalty_nonneg.
Print Assumptions svd_penalty_zero.
Print Assumptions svd_penalty_common_scale.
Print Assumptions svd_penalty_quadratic.
Print Assumptions svd_penalty_proportional_partial.
Print Assumptions svd_penalty_proportional_empty.
Print Assumptions svd_divisor_nonzero.
Print Assumptions svd_penalty_empty_bins.
Print Assumptions svd_accepts.
Print Assumptions svd_penalty_proportional_refuted.
Print Assumptions svd_penalty_prediction_scale_refuted.
Print Assumptions svd_of_mapping.
