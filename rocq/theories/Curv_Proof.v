(** Proofs about the curvature of the bin-by-bin nuisances. *)
From Coq Require Import List Reals Arith Bool Lia Lra.
From Verif Require Import PyList RBase BBStat_Model Mat_Model Mat_Proof Impacts_Model Impacts_Solve Bdiag_Model Bdiag_Proof Curv_Model Curv_Spec.
Import ListNotations.
Local Open Scope R_scope.

(** *** the Hessian *)
Lemma nexp_along B beta j a u : (j < b_m B)%nat ->
  nexp_at B (fun i => beta i + u * delta j i) a = nexp_at B beta a + (if Nat.eqb (b_bin B j) a then b_slope B j else 0) * u.
Proof.
  intros Hj. unfold nexp_at.
  rewrite (sm_ext _ (fun k => if Nat.eqb (b_bin B k) a then b_slope B k * (beta k + u * delta j k) else 0)
    (fun k => (if Nat.eqb (b_bin B k) a then b_slope B k * beta k else 0) + delta j k * ((if Nat.eqb (b_bin B k) a then b_slope B k else 0) * u))).
  2:{ intros k _. destruct (Nat.eqb (b_bin B k) a); ring. }
  rewrite sm_plus, sm_delta by auto. ring.
Qed.
Theorem hess_jacobian l B beta : (l = Poisson -> forall a, 0 < nexp_at B beta a) -> (l = Chisq -> forall a, b_var B a <> 0) ->
  jacobian_at (b_m B) (grad_at l B) beta (hess_at l B beta).
Proof.
  intros P V k j Hk Hj. set (a := b_bin B k). set (e := if Nat.eqb (b_bin B j) a then b_slope B j else 0).
  apply (dlim_ext (fun u => b_slope B k * dln l (b_nobs B a) (b_var B a) (nexp_at B beta a + e * u) + (b_k B k * (beta k - b_centre B k) + (b_k B k * delta j k) * u))).
  { intros u. unfold grad_at. fold a. rewrite nexp_along by auto. fold e. ring. }
  apply (dlim_eq _ _ (b_slope B k * (e * ddln l (b_nobs B a) (b_var B a) (nexp_at B beta a + e * 0)) + b_k B k * delta j k)).
  { unfold hess_at, same_bin, data_curvature. fold a. rewrite Rmult_0_r, Rplus_0_r. unfold e, delta. rewrite (Nat.eqb_sym a (b_bin B j)), (Nat.eqb_sym k j).
    destruct (Nat.eqb (b_bin B j) a), (Nat.eqb j k); ring. }
  apply (derivable_pt_lim_plus (fun u => b_slope B k * dln l (b_nobs B a) (b_var B a) (nexp_at B beta a + e * u))); [|apply dlim_affine].
  apply (derivable_pt_lim_scal (fun u => dln l (b_nobs B a) (b_var B a) (nexp_at B beta a + e * u))).
  apply (dd_ln l (b_nobs B a) (b_var B a) (fun u => nexp_at B beta a + e * u) 0 e).
  - intros E. rewrite Rmult_0_r, Rplus_0_r. auto.
  - auto.
  - apply dlim_affine.
Qed.

(** *** diagonal curvature *)
Lemma variance_diag m (D p : nat -> R) : (forall k, (k < m)%nat -> D k <> 0 \/ p k = 0) ->
  variance_of m (fun k j => if Nat.eqb k j then D k else 0) p (sm m (fun k => p k * (p k / D k))).
Proof.
  intros N. exists (fun k => p k / D k). split; auto. intros k Hk. unfold mv.
  rewrite (sm_ext _ _ (fun j => delta k j * (D k * (p j / D j)))) by (intros j _; unfold delta; destruct (Nat.eqb k j); ring).
  rewrite sm_delta by auto. destruct (N k Hk) as [X|X]; [field; auto|rewrite X; unfold Rdiv; ring].
Qed.
Lemma variance_ext m H H' p v : (forall k j, (k < m)%nat -> (j < m)%nat -> H k j = H' k j) -> variance_of m H p v -> variance_of m H' p v.
Proof.
  intros E (z & Z & V). exists z. split; auto. intros k Hk. rewrite <- (Z k Hk). unfold mv. apply sm_ext. intros j Hj. rewrite E by auto. auto.
Qed.
Lemma tape_diag m H j : (j < m)%nat -> (forall k, (k < m)%nat -> k <> j -> H k j = 0) -> tape_gradient m H j = H j j.
Proof.
  intros Hj Z. unfold tape_gradient. rewrite (sm_ext _ _ (fun k => delta j k * H k j)).
  - rewrite sm_delta by auto. auto.
  - intros k Hk. unfold delta. destruct (Nat.eqb_spec j k) as [->|N]; [ring|]. rewrite Z by auto. ring.
Qed.
Definition masks_off (B : betas) (p : nat -> R) : Prop := b_additive B = false -> forall k, (k < b_m B)%nat -> b_mask B k = true -> p k = 0.
Lemma part_diag covfit profile l B beta p D : masks_off B p ->
  pd2ldbeta2 covfit profile l B beta = BDiag (if b_additive B then fun _ => false else b_mask B) D ->
  beta_part covfit profile l B beta p = Ok (sm (b_m B) (fun k => p k * (p k / D k))).
Proof.
  intros M E. unfold beta_part. rewrite E. cbn [obs_q rbind]. f_equal. apply sm_ext. intros k Hk.
  destruct (b_additive B) eqn:A; [auto|]. destruct (b_mask B k) eqn:K; auto. rewrite (M A k Hk K). ring.
Qed.
Theorem part_exact l B beta p : masks_off B p ->
  (forall k j, (k < b_m B)%nat -> (j < b_m B)%nat -> k <> j -> hess_at l B beta k j = 0) ->
  (forall k, (k < b_m B)%nat -> hess_at l B beta k k <> 0 \/ p k = 0) ->
  exists v, beta_part None true l B beta p = Ok v /\ variance_of (b_m B) (hess_at l B beta) p v.
Proof.
  intros M Z N. eexists. split; [apply part_diag; [auto|reflexivity]|].
  rewrite (sm_ext _ _ (fun k => p k * (p k / hess_at l B beta k k))).
  2:{ intros k Hk. rewrite tape_diag; auto. }
  apply (variance_ext _ (fun k j => if Nat.eqb k j then hess_at l B beta k k else 0)).
  - intros k j Hk Hj. destruct (Nat.eqb_spec k j) as [->|E]; auto. symmetry. auto.
  - apply variance_diag. auto.
Qed.
Theorem part_lite l B beta p : masks_off B p -> (forall k j, (k < b_m B)%nat -> (j < b_m B)%nat -> b_bin B k = b_bin B j -> k = j) ->
  (forall k, (k < b_m B)%nat -> 0 < b_k B k \/ p k = 0) -> (forall a, 0 <= data_curvature l B beta a) ->
  exists v, beta_part None true l B beta p = Ok v /\ variance_of (b_m B) (hess_at l B beta) p v.
Proof.
  intros M I K D. apply part_exact; auto.
  - intros k j Hk Hj N. unfold hess_at, same_bin. destruct (Nat.eqb_spec (b_bin B k) (b_bin B j)) as [E|_]; [destruct N; auto|].
    destruct (Nat.eqb_spec k j); [contradiction|]. ring.
  - intros k Hk. destruct (K k Hk) as [X|X]; [left|right; auto]. unfold hess_at, same_bin. rewrite !Nat.eqb_refl. assert (Y := D (b_bin B k)).
    assert (Q : 0 <= data_curvature l B beta (b_bin B k) * (b_slope B k * b_slope B k)) by (apply Rmult_le_pos; auto; apply Rle_0_sqr). lra.
Qed.
Theorem part_prefit covfit l B beta p : masks_off B p -> (forall k, (k < b_m B)%nat -> 0 < b_k B k \/ p k = 0) ->
  exists v, beta_part covfit false l B beta p = Ok v /\ variance_of (b_m B) (fun k j => if Nat.eqb k j then b_k B k else 0) p v.
Proof.
  intros M K. eexists. split; [apply part_diag; [auto|destruct covfit; reflexivity]|].
  rewrite (sm_ext _ _ (fun k => p k * (p k / b_k B k))).
  - apply variance_diag. intros k Hk. destruct (K k Hk); [left; lra|right; auto].
  - intros k Hk. rewrite tape_diag; auto.
    + rewrite Nat.eqb_refl. auto.
    + intros j _ N. destruct (Nat.eqb_spec j k); [contradiction|auto].
Qed.
Theorem part_covfit full l B beta p v : beta_part (Some full) true l B beta p = Ok v -> variance_of (b_m B) full p v.
Proof.
  unfold beta_part, pd2ldbeta2. cbn [obs_q]. destruct (gsolve (b_m B) full p) as [q|] eqn:E; cbn [rbind]; [|discriminate].
  intros H. injection H as <-. exists q. split; auto. intros k Hk. apply (gsolve_ok _ _ _ _ E). auto.
Qed.

(** *** several entries per bin *)
Definition yield_slope (B : betas) (a : nat) : R := sm (b_m B) (total_of (b_bin B) (b_slope B) a).
Definition spread (B : betas) (a : nat) : R :=
  sm (b_m B) (fun k => total_of (b_bin B) (b_slope B) a k * (total_of (b_bin B) (b_slope B) a k / b_k B k)).
Lemma ratio_times (e k : R) : 0 < k \/ e = 0 -> k * (e / k) = e.
Proof. intros [H|H]; [field; lra|rewrite H; unfold Rdiv; ring]. Qed.
Lemma ratio_pos (e k : R) : 0 < k \/ e = 0 -> 0 <= e * (e / k).
Proof. intros [H| ->]; unfold Rdiv; [rewrite <- Rmult_assoc; apply Rmult_le_pos; [apply Rle_0_sqr|left; apply Rinv_0_lt_compat; auto]|lra]. Qed.
Lemma total_zero B a k : 0 < b_k B k \/ b_slope B k = 0 -> 0 < b_k B k \/ total_of (b_bin B) (b_slope B) a k = 0.
Proof. intros [H|H]; [left; auto|right]. unfold total_of. rewrite H. destruct (Nat.eqb _ _); auto. Qed.
Theorem exact_total l B beta a : (forall k, (k < b_m B)%nat -> 0 < b_k B k \/ b_slope B k = 0) -> 0 <= data_curvature l B beta a -> 
  variance_of (b_m B) (hess_at l B beta) (total_of (b_bin B) (b_slope B) a) (spread B a / (1 + data_curvature l B beta a * spread B a)).
Proof.
  intros K0 D. set (d := data_curvature l B beta a) in *. set (E := total_of (b_bin B) (b_slope B) a).
  assert (K : forall k, (k < b_m B)%nat -> 0 < b_k B k \/ E k = 0) by (intros k Hk; apply total_zero; auto). clear K0.
  assert (SP : 0 <= spread B a) by (unfold spread; apply sm_nonneg; intros k Hk; fold E; apply ratio_pos; auto).
  assert (DS : 0 <= d * spread B a) by (apply Rmult_le_pos; auto).
  exists (fun k => E k / b_k B k / (1 + d * spread B a)). split.
  - intros k Hk. unfold mv, hess_at.
    rewrite (sm_ext _ _ (fun j => (d * E k / (1 + d * spread B a)) * (E j * (E j / b_k B j)) + delta k j * (b_k B k * (E k / b_k B k) / (1 + d * spread B a)))).
    2:{ intros j Hj. assert (KJ := ratio_times _ _ (K j Hj)). unfold same_bin, delta.
        assert (EK : E k = if Nat.eqb (b_bin B k) a then b_slope B k else 0) by reflexivity.
        assert (EJ : E j = if Nat.eqb (b_bin B j) a then b_slope B j else 0) by reflexivity.
        destruct (Nat.eqb_spec k j) as [<-|N].
        - rewrite Nat.eqb_refl. destruct (Nat.eqb_spec (b_bin B k) a) as [A|A]; [rewrite A; fold d; rewrite <- EK; unfold Rdiv; ring|].
          rewrite EK. unfold Rdiv. ring.
        - destruct (Nat.eqb_spec (b_bin B k) (b_bin B j)) as [Q|Q].
          + destruct (Nat.eqb_spec (b_bin B k) a) as [A|A].
            * rewrite <- Q in EJ. rewrite A in EJ. rewrite Nat.eqb_refl in EJ. rewrite A. fold d. rewrite <- EK, <- EJ. unfold Rdiv. ring.
            * rewrite <- Q in EJ. destruct (Nat.eqb_spec (b_bin B k) a) in EJ; [contradiction|]. rewrite EJ. unfold Rdiv. ring.
          + destruct (Nat.eqb_spec (b_bin B k) a) as [A|A]; [|rewrite EK; unfold Rdiv; ring].
            destruct (Nat.eqb_spec (b_bin B j) a) as [A'|A']; [congruence|]. rewrite EJ. unfold Rdiv. ring. }
    rewrite sm_plus, sm_delta, sm_scal by auto. change (sm (b_m B) (fun j => E j * (E j / b_k B j))) with (spread B a).
    rewrite (ratio_times _ _ (K k Hk)). field. lra.
  - unfold spread at 1. fold E. unfold Rdiv at 1. rewrite <- sm_scalr. apply sm_ext. intros k Hk. unfold Rdiv. ring.
Qed.
Theorem code_total l B beta a : masks_off B (total_of (b_bin B) (b_slope B) a) ->
  beta_part None true l B beta (total_of (b_bin B) (b_slope B) a) =
  Ok (sm (b_m B) (fun k => let e := total_of (b_bin B) (b_slope B) a k in e * (e / (b_k B k + data_curvature l B beta a * e * yield_slope B a)))).
Proof.
  intros M. rewrite (part_diag None true l B beta _ _ M eq_refl). f_equal. apply sm_ext. intros k Hk. cbn zeta.
  assert (TE : total_of (b_bin B) (b_slope B) a k = if Nat.eqb (b_bin B k) a then b_slope B k else 0) by reflexivity.
  destruct (Nat.eqb_spec (b_bin B k) a) as [A|A]; rewrite TE; [|unfold Rdiv; ring]. do 2 f_equal.
  unfold tape_gradient, hess_at, yield_slope.
  rewrite (sm_ext _ _ (fun j => data_curvature l B beta a * b_slope B k * total_of (b_bin B) (b_slope B) a j + delta k j * b_k B k)).
  - rewrite sm_plus, sm_delta, sm_scal by auto. ring.
  - intros j Hj. unfold same_bin, total_of, delta. rewrite A, (Nat.eqb_sym k j). destruct (Nat.eqb_spec (b_bin B j) a) as [->|Q].
    + destruct (Nat.eqb_spec j k) as [->|]; ring.
    + destruct (Nat.eqb_spec j k) as [->|]; [contradiction|ring].
Qed.
Lemma tangent c r m : 0 <= c -> 0 <= r -> 0 <= m -> r / (1 + c * r) <= m / (1 + c * m) + (r - m) / ((1 + c * m) * (1 + c * m)).
Proof.
  intros C Hr Hm. assert (CR : 0 <= c * r) by (apply Rmult_le_pos; auto). assert (CM : 0 <= c * m) by (apply Rmult_le_pos; auto).
  assert (X : m / (1 + c * m) + (r - m) / ((1 + c * m) * (1 + c * m)) - r / (1 + c * r) = c * ((r - m) * (r - m)) / ((1 + c * m) * (1 + c * m) * (1 + c * r))).
  { field. lra. }
  assert (Y : 0 <= c * ((r - m) * (r - m)) / ((1 + c * m) * (1 + c * m) * (1 + c * r))).
  { unfold Rdiv. apply Rmult_le_pos; [apply Rmult_le_pos; [auto|apply Rle_0_sqr]|]. left. apply Rinv_0_lt_compat.
    apply Rmult_lt_0_compat; [apply Rmult_lt_0_compat|]; lra. }
  lra.
Qed.
Lemma sm_le n : forall f g, (forall i, (i < n)%nat -> f i <= g i) -> sm n f <= sm n g.
Proof. intros f g H. assert (X := sm_nonneg n (fun i => g i - f i)). rewrite sm_minus in X. assert (Y : 0 <= sm n g - sm n f) by (apply X; intros i Hi; specialize (H i Hi); lra). lra. Qed.
Theorem too_small l B beta a : masks_off B (total_of (b_bin B) (b_slope B) a) ->
  (forall k, (k < b_m B)%nat -> (0 < b_k B k \/ b_slope B k = 0) /\ 0 <= b_slope B k) -> 0 <= data_curvature l B beta a ->
  exists v w, beta_part None true l B beta (total_of (b_bin B) (b_slope B) a) = Ok v /\
    variance_of (b_m B) (hess_at l B beta) (total_of (b_bin B) (b_slope B) a) w /\ v <= w.
Proof.
  intros M K D. eexists _, _. split; [apply code_total; auto|]. split; [apply exact_total; [intros k Hk; apply K; auto|auto]|]. cbn zeta.
  set (d := data_curvature l B beta a) in *. set (E := total_of (b_bin B) (b_slope B) a). set (N := yield_slope B a). set (S := spread B a).
  assert (EP : forall k, (k < b_m B)%nat -> 0 <= E k).
  { intros k Hk. unfold E, total_of. destruct (Nat.eqb (b_bin B k) a); [apply K; auto|lra]. }
  assert (NP : 0 <= N) by (apply sm_nonneg; auto).
  destruct (Req_dec N 0) as [Z|Z].
  - (* all slopes vanish *)
    assert (EZ : forall k, (k < b_m B)%nat -> E k = 0).
    { intros k Hk. assert (X : 0 <= sm (b_m B) (fun j => E j - delta k j * E j)).
      { apply sm_nonneg. intros j Hj. unfold delta. specialize (EP j Hj). destruct (Nat.eqb k j); lra. }
      rewrite sm_minus, sm_delta in X by auto. change (sm (b_m B) E) with N in X. specialize (EP k Hk). lra. }
    rewrite sm_0 by (intros k Hk; rewrite EZ by auto; ring). unfold S, spread. fold E. rewrite sm_0 by (intros k Hk; rewrite EZ by auto; ring). unfold Rdiv. lra.
  - assert (NP' : 0 < N) by lra. set (m := S / N).
    assert (SP : 0 <= S).
    { unfold S, spread. fold E. apply sm_nonneg. intros k Hk. destruct (K k Hk) as [KK _]. apply ratio_pos, total_zero; auto. }
    assert (MP : 0 <= m) by (unfold m; apply Rmult_le_pos; [auto|left; apply Rinv_0_lt_compat; auto]).
    assert (C : 0 <= d * N) by (apply Rmult_le_pos; auto).
    assert (CM : 0 <= d * N * m) by (apply Rmult_le_pos; auto).
    apply Rle_trans with (sm (b_m B) (fun k => E k * (m / (1 + d * N * m) + (E k / b_k B k - m) / ((1 + d * N * m) * (1 + d * N * m))))).
    + apply sm_le. intros k Hk. destruct (K k Hk) as [KK' _]. specialize (EP k Hk).
      destruct (total_zero B a k KK') as [KK|Z0]; [|fold E in Z0; rewrite Z0; lra]. apply Rmult_le_compat_l; auto.
      assert (RP : 0 <= E k / b_k B k) by (apply Rmult_le_pos; [auto|left; apply Rinv_0_lt_compat; auto]).
      assert (DEN : 0 <= d * E k * N) by (apply Rmult_le_pos; auto; apply Rmult_le_pos; auto).
      replace (E k / (b_k B k + d * E k * N)) with (E k / b_k B k / (1 + d * N * (E k / b_k B k))).
      * apply tangent; auto.
      * field. assert (DEN2 : d * E k * N = d * N * E k) by ring. rewrite ?DEN2 in *. repeat split; nra.
    + right. rewrite (sm_ext _ _ (fun k => (m / (1 + d * N * m) - m / ((1 + d * N * m) * (1 + d * N * m))) * E k + / ((1 + d * N * m) * (1 + d * N * m)) * (E k * (E k / b_k B k)))).
      2:{ intros k Hk. set (r := E k / b_k B k). field. lra. }
      rewrite sm_plus, !sm_scal. change (sm (b_m B) E) with N. change (sm (b_m B) (fun k => E k * (E k / b_k B k))) with S.
      assert (MN : S = m * N) by (unfold m; field; lra). rewrite MN. field. lra.
Qed.

(** *** when the two agree *)
Lemma tangent_strict c r m : 0 < c -> 0 <= r -> 0 <= m -> r <> m -> r / (1 + c * r) < m / (1 + c * m) + (r - m) / ((1 + c * m) * (1 + c * m)).
Proof.
  intros C Hr Hm NE. assert (CR : 0 <= c * r) by (apply Rmult_le_pos; lra). assert (CM : 0 <= c * m) by (apply Rmult_le_pos; lra).
  assert (X : m / (1 + c * m) + (r - m) / ((1 + c * m) * (1 + c * m)) - r / (1 + c * r) = c * ((r - m) * (r - m)) / ((1 + c * m) * (1 + c * m) * (1 + c * r))).
  { field. lra. }
  assert (Y : 0 < c * ((r - m) * (r - m)) / ((1 + c * m) * (1 + c * m) * (1 + c * r))).
  { unfold Rdiv. apply Rmult_lt_0_compat.
    - apply Rmult_lt_0_compat; auto. apply Rsqr_pos_lt. lra.
    - apply Rinv_0_lt_compat. apply Rmult_lt_0_compat; [apply Rmult_lt_0_compat|]; lra. }
  lra.
Qed.
Lemma sm_lt n f g k : (k < n)%nat -> (forall i, (i < n)%nat -> f i <= g i) -> f k < g k -> sm n f < sm n g.
Proof.
  intros Hk L S. assert (X := sm_le n (fun i => f i + delta k i * (g i - f i)) g). rewrite sm_plus, sm_delta in X by auto.
  assert (Y : sm n f + (g k - f k) <= sm n g); [|lra]. apply X. intros i Hi. specialize (L i Hi). unfold delta. destruct (Nat.eqb k i); lra.
Qed.
Theorem agree l B beta a r : masks_off B (total_of (b_bin B) (b_slope B) a) ->
  (forall k, (k < b_m B)%nat -> (0 < b_k B k \/ b_slope B k = 0) /\ 0 <= b_slope B k) -> 0 <= data_curvature l B beta a -> 0 <= r ->
  (forall k, (k < b_m B)%nat -> b_bin B k = a -> b_slope B k <> 0 -> b_slope B k / b_k B k = r) ->
  exists v, beta_part None true l B beta (total_of (b_bin B) (b_slope B) a) = Ok v /\ variance_of (b_m B) (hess_at l B beta) (total_of (b_bin B) (b_slope B) a) v.
Proof.
  intros M K D R0 R. exists (spread B a / (1 + data_curvature l B beta a * spread B a)).
  split; [|apply exact_total; auto; intros k Hk; apply K; auto].
  rewrite code_total by auto. f_equal. cbn zeta.
  set (d := data_curvature l B beta a) in *. set (E := total_of (b_bin B) (b_slope B) a). set (N := yield_slope B a).
  assert (EP : forall k, (k < b_m B)%nat -> 0 <= E k) by (intros k Hk; unfold E, total_of; destruct (Nat.eqb (b_bin B k) a); [apply K; auto|lra]).
  assert (NP : 0 <= N) by (apply sm_nonneg; auto).
  assert (ER : forall k, (k < b_m B)%nat -> E k * (E k / b_k B k) = r * E k).
  { intros k Hk. unfold E, total_of. destruct (Nat.eqb_spec (b_bin B k) a) as [A|A]; [|ring]. destruct (Req_dec (b_slope B k) 0) as [Z|Z]; [rewrite Z; ring|].
    rewrite (R k Hk A Z). ring. }
  assert (S : spread B a = r * N). { unfold spread. fold E. rewrite (sm_ext _ _ (fun k => r * E k)) by auto. apply sm_scal. }
  rewrite S. assert (DN : 0 <= d * (r * N)) by (apply Rmult_le_pos; auto; apply Rmult_le_pos; auto).
  rewrite (sm_ext _ _ (fun k => r / (1 + d * (r * N)) * E k)).
  - rewrite sm_scal. change (sm (b_m B) E) with N. field. lra.
  - intros k Hk. unfold E, total_of. destruct (Nat.eqb_spec (b_bin B k) a) as [A|A]; [|ring]. destruct (Req_dec (b_slope B k) 0) as [Z|Z]; [rewrite Z; ring|].
    destruct (K k Hk) as [[KK|KK] _]; [|contradiction]. assert (RK : b_slope B k = r * b_k B k) by (rewrite <- (R k Hk A Z); field; lra).
    rewrite RK. assert (b_k B k + d * (r * b_k B k) * N = b_k B k * (1 + d * (r * N))) as -> by ring. field. lra.
Qed.
Theorem disagree l B beta a i j : masks_off B (total_of (b_bin B) (b_slope B) a) ->
  (forall k, (k < b_m B)%nat -> (0 < b_k B k \/ b_slope B k = 0) /\ 0 <= b_slope B k) -> 0 < data_curvature l B beta a ->
  (i < b_m B)%nat -> (j < b_m B)%nat -> b_bin B i = a -> b_bin B j = a -> 0 < b_slope B i -> 0 < b_slope B j -> b_slope B i / b_k B i <> b_slope B j / b_k B j ->
  exists v w, beta_part None true l B beta (total_of (b_bin B) (b_slope B) a) = Ok v /\
    variance_of (b_m B) (hess_at l B beta) (total_of (b_bin B) (b_slope B) a) w /\ v < w.
Proof.
  intros M K D Hi Hj Ai Aj Pi Pj NE. eexists _, _. split; [apply code_total; auto|]. split; [apply exact_total; [intros k Hk; apply K; auto|lra]|]. cbn zeta.
  set (d := data_curvature l B beta a) in *. set (E := total_of (b_bin B) (b_slope B) a). set (N := yield_slope B a). set (S := spread B a).
  assert (EP : forall k, (k < b_m B)%nat -> 0 <= E k).
  { intros k Hk. unfold E, total_of. destruct (Nat.eqb (b_bin B k) a); [apply K; auto|lra]. }
  assert (Ei : E i = b_slope B i) by (unfold E, total_of; rewrite Ai, Nat.eqb_refl; auto).
  assert (Ej : E j = b_slope B j) by (unfold E, total_of; rewrite Aj, Nat.eqb_refl; auto).
  assert (NP : 0 < N).
  { unfold N, yield_slope. fold E. rewrite <- (sm_0 (b_m B) (fun _ => 0)) by auto. apply (sm_lt _ _ _ i); auto. rewrite Ei. auto. }
  set (m := S / N).
  assert (SP : 0 <= S).
  { unfold S, spread. fold E. apply sm_nonneg. intros k Hk. destruct (K k Hk) as [KK _]. apply ratio_pos, total_zero; auto. }
  assert (MP : 0 <= m) by (unfold m; apply Rmult_le_pos; [auto|left; apply Rinv_0_lt_compat; auto]).
  assert (C : 0 < d * N) by (apply Rmult_lt_0_compat; auto).
  assert (CM : 0 <= d * N * m) by (apply Rmult_le_pos; lra).
  assert (KP : forall k, (k < b_m B)%nat -> 0 < b_slope B k -> 0 < b_k B k) by (intros k Hk P; destruct (K k Hk) as [[X|X] _]; auto; lra).
  assert (T : forall k, (k < b_m B)%nat -> 0 < b_k B k -> 0 <= E k / b_k B k /\ E k / (b_k B k + d * E k * N) = E k / b_k B k / (1 + d * N * (E k / b_k B k))).
  { intros k Hk KK. specialize (EP k Hk). split; [apply Rmult_le_pos; [auto|left; apply Rinv_0_lt_compat; auto]|].
    assert (DEN : 0 <= d * N * E k) by (apply Rmult_le_pos; lra). field. repeat split; nra. }
  assert (EX : exists q, (q < b_m B)%nat /\ 0 < E q /\ 0 < b_k B q /\ E q / b_k B q <> m).
  { destruct (Req_dec (E i / b_k B i) m) as [X|X]; [exists j|exists i]; (split; [auto|split; [lra|split; [auto|]]]); auto. rewrite Ej. rewrite Ei in X. congruence. }
  destruct EX as (q & Hq & Eq & Kq & Nq).
  apply Rlt_le_trans with (sm (b_m B) (fun k => E k * (m / (1 + d * N * m) + (E k / b_k B k - m) / ((1 + d * N * m) * (1 + d * N * m))))).
  - apply (sm_lt _ _ _ q Hq).
    + intros k Hk. destruct (K k Hk) as [KK' _]. destruct (total_zero B a k KK') as [KK|Z0]; [|fold E in Z0; rewrite Z0; lra].
      apply Rmult_le_compat_l; auto. destruct (T k Hk KK) as (RP & ->). apply tangent; auto. lra.
    + apply Rmult_lt_compat_l; auto. destruct (T q Hq Kq) as (RP & ->). apply tangent_strict; auto.
  - right. rewrite (sm_ext _ _ (fun k => (m / (1 + d * N * m) - m / ((1 + d * N * m) * (1 + d * N * m))) * E k + / ((1 + d * N * m) * (1 + d * N * m)) * (E k * (E k / b_k B k)))).
    2:{ intros k Hk. set (r := E k / b_k B k). field. lra. }
    rewrite sm_plus, !sm_scal. change (sm (b_m B) E) with N. change (sm (b_m B) (fun k => E k * (E k / b_k B k))) with S.
    assert (MN : S = m * N) by (unfold m; field; lra). rewrite MN. field. lra.
Qed.
