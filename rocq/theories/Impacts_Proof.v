From Coq Require Import Reals List Arith Bool Lra Lia.
From Verif Require Import RBase PyList Mat_Model Mat_Proof Linear_Model Linear_Spec Linear_Proof Impacts_Model Impacts_Spec Impacts_Solve.
Import ListNotations.
Open Scope R_scope.

Lemma mem_in k l : mem k l = true <-> In k l.
Proof. unfold mem. rewrite existsb_exists. split; [intros (x & I & E); apply Nat.eqb_eq in E; subst; auto|intros I; exists k; split; auto; apply Nat.eqb_refl]. Qed.
Lemma mem_not k l : mem k l = false <-> ~ In k l.
Proof. destruct (mem k l) eqn:E; split; intros H; try discriminate; auto. - elim H. apply mem_in. auto. - intros I. apply mem_in in I. congruence. Qed.
Lemma sm_support n : forall l f, NoDup l -> (forall i, In i l -> (i < n)%nat) -> (forall i, (i < n)%nat -> ~ In i l -> f i = 0) -> sm n f = lsum f l.
Proof.
  intros l. induction l as [|a l IH]; intros f ND R Z.
  - unfold lsum. cbn. apply sm_0. intros i Hi. apply Z; auto.
  - inversion ND as [|? ? NI ND']; subst. unfold lsum. cbn [map fold_right]. fold (lsum f l).
    assert (Ha : (a < n)%nat) by (apply R; left; auto).
    transitivity (sm n (fun i => delta a i * f i + (1 - delta a i) * f i)); [apply sm_ext; intros; ring|].
    rewrite sm_plus, sm_delta by auto. f_equal.
    rewrite (IH (fun i => (1 - delta a i) * f i)); auto.
    + apply lsum_ext. intros i Hi. unfold delta. destruct (Nat.eqb_spec a i); [subst; contradiction|ring].
    + intros i Hi. apply R. right. auto.
    + intros i Hi NIi. unfold delta. destruct (Nat.eqb_spec a i); [ring|]. rewrite Z; auto; [ring|]. intros [?|?]; congruence.
Qed.
Lemma lsum_0 f l : (forall i, In i l -> f i = 0) -> lsum f l = 0.
Proof. intros H. induction l as [|a l IH]; [reflexivity|]. unfold lsum in *. cbn. rewrite H by (left; auto). rewrite IH; [lra|]. intros; apply H; right; auto. Qed.
Lemma lsum_minus f g l : lsum (fun i => f i - g i) l = lsum f l - lsum g l.
Proof. unfold lsum. induction l as [|a l IH]; cbn; [lra|]. rewrite IH. lra. Qed.
Lemma lsum_plus f g l : lsum (fun i => f i + g i) l = lsum f l + lsum g l.
Proof. unfold lsum. induction l as [|a l IH]; cbn; [lra|]. rewrite IH. lra. Qed.
Lemma lsum_swap f l l' : lsum (fun i => lsum (fun j => f i j) l) l' = lsum (fun j => lsum (fun i => f i j) l') l.
Proof.
  induction l' as [|a l' IH]; [symmetry; apply lsum_0; reflexivity|]. unfold lsum at 1. cbn [map fold_right].
  change (lsum (fun j => f a j) l + lsum (fun i => lsum (fun j => f i j) l) l' = lsum (fun j => lsum (fun i => f i j) (a :: l')) l). rewrite IH.
  rewrite <- lsum_plus. reflexivity.
Qed.

(** quadratic forms over an index list *)
Definition lq (l : list nat) (A : nat -> nat -> R) (u v : nat -> R) : R := lsum (fun i => u i * lsum (fun j => A i j * v j) l) l.
Lemma lq_sym l A u v : block_sym l A -> lq l A u v = lq l A v u.
Proof.
  intros S. unfold lq. transitivity (lsum (fun i => lsum (fun j => u i * A i j * v j) l) l).
  - apply lsum_ext. intros i _. rewrite <- lsum_scal. apply lsum_ext. intros; ring.
  - rewrite lsum_swap. apply lsum_ext. intros j Hj. rewrite <- lsum_scal. apply lsum_ext. intros i Hi. rewrite (S i j) by auto. ring.
Qed.
Lemma lq_minus_r l A u v w : lq l A u (fun i => v i - w i) = lq l A u v - lq l A u w.
Proof. unfold lq. rewrite <- lsum_minus. apply lsum_ext. intros i _. rewrite <- Rmult_minus_distr_l. f_equal. rewrite <- lsum_minus. apply lsum_ext. intros; ring. Qed.
Lemma lq_minus_l l A u v w : lq l A (fun i => v i - w i) u = lq l A v u - lq l A w u.
Proof. unfold lq. rewrite <- lsum_minus. apply lsum_ext. intros; ring. Qed.
Lemma lq_block l A v : lq l A v v = lsum (fun i => lsum (fun j => v i * A i j * v j) l) l.
Proof. unfold lq. apply lsum_ext. intros i _. rewrite <- lsum_scal. apply lsum_ext. intros; ring. Qed.
Lemma ex_nz (l : list nat) (v : nat -> R) : (exists i, In i l /\ v i <> 0) \/ forall i, In i l -> v i = 0.
Proof.
  induction l as [|a l [(i & I & N)|Z]]; [right; contradiction|left; exists i; split; auto; right; auto|].
  destruct (Req_dec (v a) 0); [right; intros i [<-|I]; auto|left; exists a; split; auto; left; auto].
Qed.
Lemma lq_nonneg l A v : block_posdef l A -> 0 <= lq l A v v.
Proof.
  intros PD. rewrite lq_block. destruct (ex_nz l v) as [E|Z].
  - left. apply PD. auto.
  - right. symmetry. apply lsum_0. intros i Hi. apply lsum_0. intros j Hj. rewrite (Z i Hi). ring.
Qed.

(** the linear system of a group *)
Lemma gat_regular l A : NoDup l -> block_posdef l A -> regular (List.length l) (gat2 A l).
Proof. intros ND PD. apply posdef_regular. apply (block_pd_iff l A ND). auto. Qed.
Lemma extend_nth l x a : NoDup l -> (a < List.length l)%nat -> extend l x (nth a l O) = x a.
Proof. intros ND Ha. unfold extend. rewrite index_of_nth by auto. auto. Qed.
Lemma solve_list l A b : NoDup l -> block_posdef l A ->
  exists x, gsolve (List.length l) (gat2 A l) (fun a => b (nth a l O)) = Some x /\
    (forall k, In k l -> lsum (fun j => A k j * extend l x j) l = b k) /\
    sm (List.length l) (fun a => b (nth a l O) * x a) = lsum (fun j => b j * extend l x j) l.
Proof.
  intros ND PD. destruct (gsolve_regular _ (gat2 A l) (fun a => b (nth a l O)) (gat_regular l A ND PD)) as (x & E).
  exists x. split; auto. split.
  - intros k Hk. apply in_nth in Hk. destruct Hk as (a & Ha & <-). rewrite <- (gsolve_ok _ _ _ _ E a Ha). unfold mv.
    rewrite <- sm_list. apply sm_ext. intros c Hc. rewrite extend_nth by auto. reflexivity.
  - rewrite <- sm_list. apply sm_ext. intros c Hc. rewrite extend_nth by auto. reflexivity.
Qed.

(** expansion of the residual variance *)
Lemma quad_minus n C a b : sym n C -> quad n C (fun k => a k - b k) = quad n C a - 2 * sm n (fun i => a i * mv n C b i) + quad n C b.
Proof.
  intros S. assert (X := mv_sym n C b a S). unfold vdot in X. unfold quad.
  transitivity (sm n (fun i => a i * mv n C a i - a i * mv n C b i - (b i * mv n C a i - b i * mv n C b i))).
  - apply sm_ext. intros i _. rewrite mv_minus. ring.
  - rewrite !sm_minus. rewrite X. ring.
Qed.
Definition only (l : list nat) (z : nat -> R) (k : nat) : R := if mem k l then z k else 0.
Lemma residual_quad n C i l z : sym n C -> (i < n)%nat -> in_range n l ->
  quad n C (residual i l z) = C i i - 2 * lsum (fun j => C i j * z j) l + lq l C z z.
Proof.
  intros S Hi (ND & R). change (residual i l z) with (fun k => delta i k - only l z k). rewrite quad_minus by auto. f_equal.
  - f_equal.
    + rewrite (quad_ext n C _ (fun j => 1 * delta i j)) by (intros; ring). rewrite quad_delta by auto. ring.
    + rewrite sm_delta by auto. unfold mv. rewrite (sm_support n l); auto.
      * f_equal. apply lsum_ext. intros j Hj. unfold only. apply mem_in in Hj. rewrite Hj. auto.
      * intros j _ NI. unfold only. apply mem_not in NI. rewrite NI. ring.
  - unfold quad, lq. rewrite (sm_support n l); auto.
    + apply lsum_ext. intros j Hj. unfold only at 1. assert (M := Hj). apply mem_in in M. rewrite M. f_equal.
      unfold mv. rewrite (sm_support n l); auto.
      * apply lsum_ext. intros k Hk. unfold only. apply mem_in in Hk. rewrite Hk. auto.
      * intros k _ NI. unfold only. apply mem_not in NI. rewrite NI. ring.
    + intros k _ NI. unfold only at 1. apply mem_not in NI. rewrite NI. ring.
Qed.
Theorem group_spec n C i l : covariance n C -> (i < n)%nat -> in_range n l -> block_posdef l C ->
  exists g, compute_impact_group C (C i) l = Ok (Some g) /\ group_impact n C i l g.
Proof.
  intros (S & PSD) Hi (ND & R) PD. unfold compute_impact_group.
  destruct (solve_list l C (C i) ND PD) as (x & -> & SX & ->).
  set (X := extend l x) in *. set (val := lsum (fun j => C i j * X j) l).
  assert (BS : block_sym l C) by (intros a b Ha Hb; apply S; auto).
  assert (V : forall z, lq l C z X = lsum (fun j => C i j * z j) l).
  { intros z. unfold lq. apply lsum_ext. intros j Hj. rewrite SX by auto. ring. }
  assert (V2 : lq l C X X = val) by apply V.
  assert (NN : 0 <= val) by (rewrite <- V2; apply lq_nonneg; auto).
  unfold tsqrt. rewrite Rltb_false by lra. eexists. split; [reflexivity|]. split; [apply sqrt_pos|].
  replace (sqrt val ^ 2) with val by (cbn [pow]; rewrite Rmult_1_r, sqrt_sqrt; auto). split.
  - exists X. rewrite residual_quad by (auto; split; auto). fold val. rewrite V2. ring.
  - intros z. rewrite residual_quad by (auto; split; auto).
    assert (Q := lq_nonneg l C (fun k => z k - X k) PD). rewrite lq_minus_l, !lq_minus_r in Q.
    rewrite (lq_sym l C X z BS), V, V2 in Q. lra.
Qed.
Lemma conditional_unique n C i l w w' : conditional_variance n C i l w -> conditional_variance n C i l w' -> w = w'.
Proof. intros ((z & Z) & M) ((z' & Z') & M'). assert (A := M z'). assert (B := M' z). lra. Qed.
Lemma group_unique n C i l a b : group_impact n C i l a -> group_impact n C i l b -> a = b.
Proof. intros (A & CA) (B & CB). assert (E := conditional_unique _ _ _ _ _ _ CA CB). apply Rsqr_inj; auto. unfold Rsqr. lra. Qed.
Lemma group_bounded n C i l a : covariance n C -> group_impact n C i l a -> a <= sqrt (C i i).
Proof.
  intros (S & P) (A & ((z & Z) & _)). assert (X := P (residual i l z)). rewrite Z in X.
  apply Rsqr_incr_0_var; [|apply sqrt_pos]. rewrite Rsqr_sqrt; unfold Rsqr; [nra|]. assert (0 <= a ^ 2) by (apply pow2_ge_0). lra.
Qed.
Lemma group_monotone n C i l l' a b : incl l l' -> group_impact n C i l a -> group_impact n C i l' b -> a <= b.
Proof.
  intros I (A & ((z & Z) & _)) (B & (_ & M)). specialize (M (only l z)).
  assert (E : quad n C (residual i l' (only l z)) = quad n C (residual i l z)).
  { apply quad_ext. intros k _. unfold residual, only. destruct (mem k l) eqn:K.
    - apply mem_in in K. apply I in K. apply mem_in in K. rewrite K. auto.
    - destruct (mem k l'); auto. }
  rewrite E, Z in M. apply Rsqr_incr_0_var; auto. unfold Rsqr. lra.
Qed.
Lemma cov_diag n C i : covariance n C -> (i < n)%nat -> 0 <= C i i.
Proof. intros (S & P) Hi. specialize (P (fun j => 1 * delta i j)). rewrite quad_delta in P by auto. lra. Qed.
Lemma quad_unit n C i : (i < n)%nat -> quad n C (delta i) = C i i.
Proof. intros Hi. rewrite (quad_ext n C _ (fun j => 1 * delta i j)) by (intros; ring). rewrite quad_delta by auto. ring. Qed.
(** Cauchy-Schwarz *)
Lemma cov_cs n C i j : covariance n C -> (i < n)%nat -> (j < n)%nat -> C i j * C i j <= C i i * C j j.
Proof.
  intros K Hi Hj. assert (D := cov_diag n C j K Hj). assert (Di := cov_diag n C i K Hi). destruct K as (S & P).
  assert (Q : forall t, 0 <= C i i - 2 * t * C i j + t * t * C j j).
  { intros t. specialize (P (fun k => delta i k - t * delta j k)). rewrite quad_minus in P by auto.
    change (quad n C (fun k => delta i k)) with (quad n C (delta i)) in P. rewrite quad_unit in P by auto. rewrite quad_delta in P by auto. rewrite sm_delta in P by auto.
    unfold mv in P. rewrite (sm_ext n _ (fun k => delta j k * (t * C i k))) in P by (intros; ring). rewrite sm_delta in P by auto. lra. }
  destruct (Req_dec (C j j) 0) as [Z|Z].
  - rewrite Z. destruct (Req_dec (C i j) 0) as [E|E]; [rewrite E; lra|]. exfalso.
    specialize (Q ((C i i + 1) / (2 * C i j))). rewrite Z in Q.
    replace (C i i - 2 * ((C i i + 1) / (2 * C i j)) * C i j + (C i i + 1) / (2 * C i j) * ((C i i + 1) / (2 * C i j)) * 0) with (-1) in Q by (field; auto). lra.
  - specialize (Q (C i j / C j j)). replace (C i i - 2 * (C i j / C j j) * C i j + C i j / C j j * (C i j / C j j) * C j j) with (C i i - C i j * C i j / C j j) in Q by (field; auto).
    assert (X : C i j * C i j / C j j * C j j = C i j * C i j) by (field; auto). assert (0 < C j j) by lra. nra.
Qed.
Lemma single_spec n C i j : covariance n C -> (i < n)%nat -> (j < n)%nat -> is_impact C i j (single_impact C (Some i) j).
Proof.
  intros K Hi Hj. assert (CS := cov_cs n C i j K Hi Hj). assert (Dj := cov_diag n C j K Hj). assert (Di := cov_diag n C i K Hi).
  unfold single_impact, read_row, safe_sigma. cbv zeta. destruct (Req_dec (C j j) 0) as [Z|Z].
  - assert (E : C i j = 0) by (rewrite Z in CS; nra). rewrite Z, sqrt_0, Rltb_false, E by lra.
    replace (0 / 1) with 0 by field. unfold is_impact. rewrite Rabs_R0. split; [rewrite E; ring|]. split; [apply sqrt_pos|]. split; auto.
    intros ->. rewrite Z, sqrt_0. auto.
  - unfold is_impact. assert (P : 0 < sqrt (C j j)) by (apply sqrt_lt_R0; lra). rewrite Rltb_true by auto.
    assert (Q : sqrt (C j j) * sqrt (C j j) = C j j) by (apply sqrt_sqrt; auto).
    split; [field; lra|]. split; [|split].
    + unfold Rdiv. rewrite Rabs_mult, Rabs_inv, (Rabs_right (sqrt (C j j))) by lra.
      apply (Rmult_le_reg_r (sqrt (C j j))); auto. rewrite Rmult_assoc, Rinv_l by lra. rewrite Rmult_1_r, <- sqrt_mult by auto.
      apply Rsqr_incr_0_var; [|apply sqrt_pos]. rewrite <- Rsqr_abs, Rsqr_sqrt by (apply Rmult_le_pos; auto). exact CS.
    + intros ->. rewrite <- Q at 1. field. lra.
    + contradiction.
Qed.
Lemma group_of_one n C i j a g : covariance n C -> (i < n)%nat -> (j < n)%nat -> 0 < C j j -> is_impact C i j a -> group_impact n C i [j] g -> g = Rabs a.
Proof.
  intros K Hi Hj D (A & _) (G & ((z & Z) & M)).
  assert (R : in_range n [j]) by (split; [constructor; [intros []|constructor]|intros k [<-|[]]; auto]).
  assert (S : sym n C) by apply K. assert (F : forall z, quad n C (residual i [j] z) = C i i - 2 * C i j * z j + z j * z j * C j j).
  { intros y. rewrite residual_quad by auto. unfold lq, lsum. cbn. ring. }
  rewrite F in Z. specialize (M (fun _ => C i j / C j j)). rewrite F in M. 
  assert (Q : sqrt (C j j) * sqrt (C j j) = C j j) by (apply sqrt_sqrt; lra).
  assert (E : a * a = C i j * C i j / C j j). { assert (0 < sqrt (C j j)) by (apply sqrt_lt_R0; auto). rewrite <- A. revert Q H. generalize (sqrt (C j j)). intros s Q H. rewrite <- Q. field. lra. }
  apply Rsqr_inj; [auto|apply Rabs_pos|]. rewrite <- Rsqr_abs. unfold Rsqr. rewrite E.
  replace (C i i - 2 * C i j * (C i j / C j j) + C i j / C j j * (C i j / C j j) * C j j) with (C i i - C i j * C i j / C j j) in M by (field; lra).
  assert (Y : 0 <= C j j * ((z j - C i j / C j j) * (z j - C i j / C j j))) by (apply Rmult_le_pos; [lra|apply Rle_0_sqr]).
  replace (C j j * ((z j - C i j / C j j) * (z j - C i j / C j j))) with (z j * z j * C j j - 2 * C i j * z j + C i j * C i j / C j j) in Y by (field; lra).
  nra.
Qed.
