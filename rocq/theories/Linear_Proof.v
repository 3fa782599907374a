(** Proofs about the direct minimisation. *)
From Coq Require Import Reals List Arith Lra Lia.
From Verif Require Import PyList Mat_Model Mat_Proof Linear_Model Linear_Spec.
Import ListNotations.
Open Scope R_scope.

Lemma vdot_sym n x y : vdot n x y = vdot n y x.
Proof. apply sm_ext. intros; ring. Qed.
Lemma vdot_plus_r n x y z : vdot n x (fun i => y i + z i) = vdot n x y + vdot n x z.
Proof. unfold vdot. rewrite <- sm_plus. apply sm_ext. intros; ring. Qed.
Lemma vdot_scal_r n c x y : vdot n x (fun i => c * y i) = c * vdot n x y.
Proof. unfold vdot. rewrite <- sm_scal. apply sm_ext. intros; ring. Qed.
Lemma vdot_minus_r n x y z : vdot n x (fun i => y i - z i) = vdot n x y - vdot n x z.
Proof. unfold vdot. rewrite <- sm_minus. apply sm_ext. intros; ring. Qed.
Lemma vdot_ext n x y x' y' : (forall i, (i < n)%nat -> x i = x' i) -> (forall i, (i < n)%nat -> y i = y' i) -> vdot n x y = vdot n x' y'.
Proof. intros H1 H2. apply sm_ext. intros i Hi. rewrite H1, H2 by auto. reflexivity. Qed.
Lemma vdot_nonneg n x : 0 <= vdot n x x.
Proof. apply sm_nonneg. intros i _. apply Rle_0_sqr. Qed.
Lemma vdot_self_0 n : forall x, vdot n x x = 0 -> forall i, (i < n)%nat -> x i = 0.
Proof.
  induction n as [|n IH]; intros x E i Hi; [lia|]. unfold vdot in E. cbn [sm] in E.
  assert (A : 0 <= x O * x O) by apply Rle_0_sqr. assert (B := vdot_nonneg n (fun i => x (S i))). unfold vdot in B.
  destruct i as [|i]; [nra|]. apply (IH (fun i => x (S i))); [unfold vdot; lra|lia].
Qed.
Lemma mv_sym n A x y : sym n A -> vdot n x (mv n A y) = vdot n y (mv n A x).
Proof.
  intros S. unfold vdot, mv. transitivity (sm n (fun i => sm n (fun j => x i * A i j * y j))).
  - apply sm_ext. intros i _. rewrite <- sm_scal. apply sm_ext. intros; ring.
  - rewrite sm_swap. apply sm_ext. intros j Hj. rewrite <- sm_scal. apply sm_ext. intros i Hi. rewrite (S i j) by auto. ring.
Qed.
Lemma quad_dot n A x : quad n A x = vdot n x (mv n A x).
Proof. reflexivity. Qed.
Lemma quad_ext n A x y : (forall i, (i < n)%nat -> x i = y i) -> quad n A x = quad n A y.
Proof. intros H. unfold quad. apply sm_ext. intros i Hi. rewrite H by auto. f_equal. apply mv_ext; auto. Qed.
(** Taylor expansion around [x] *)
Lemma qfun_taylor n c b H x d : sym n H ->
  qfun n c b H (fun i => x i + d i) = qfun n c b H x + vdot n (qgrad n b H x) d + 1 / 2 * quad n H d.
Proof.
  intros S. unfold qfun, qgrad. rewrite vdot_plus_r.
  assert (E : quad n H (fun i => x i + d i) = quad n H x + 2 * vdot n d (mv n H x) + quad n H d).
  { rewrite !quad_dot.
    transitivity (vdot n (fun i => x i + d i) (fun i => mv n H x i + mv n H d i)).
    { apply vdot_ext; auto. intros i _. apply mv_plus. }
    rewrite vdot_plus_r, !(vdot_sym n (fun i => x i + d i)), !vdot_plus_r.
    rewrite (vdot_sym n (mv n H d) x), (mv_sym n H x d S), (vdot_sym n (mv n H x)), (vdot_sym n (mv n H x) d), (vdot_sym n (mv n H d)). ring. }
  rewrite E. rewrite (vdot_sym n (fun i => b i + mv n H x i) d), vdot_plus_r, (vdot_sym n d b). lra.
Qed.
(** unique global minimum where the gradient vanishes *)
Lemma qfun_min n c b H x : sym n H -> posdef n H -> (forall i, (i < n)%nat -> qgrad n b H x i = 0) ->
  forall y, qfun n c b H x <= qfun n c b H y /\ (qfun n c b H y <= qfun n c b H x -> forall i, (i < n)%nat -> y i = x i).
Proof.
  intros S PD G y.
  assert (E : qfun n c b H y = qfun n c b H x + 1 / 2 * quad n H (fun i => y i - x i)).
  { transitivity (qfun n c b H (fun i => x i + (y i - x i))).
    - unfold qfun. f_equal; [f_equal; apply vdot_ext; auto; intros; ring|]. f_equal. apply quad_ext. intros; ring.
    - rewrite qfun_taylor by auto. unfold vdot at 1. rewrite sm_0; [lra|]. intros i Hi. rewrite G by auto. lra. }
  destruct (nonzero_dec n (fun i => y i - x i)) as [N|Z].
  - specialize (PD _ N). split; [lra|]. intros L. lra.
  - rewrite quad_zero in E by auto. split; [lra|]. intros _ i Hi. specialize (Z i Hi). cbn in Z. lra.
Qed.
Theorem newton_chol_spec n c b H x : sym n H ->
  (posdef n H -> exists z, newton_chol n (qgrad n b H x) H x = Ok z /\
     forall y, qfun n c b H z <= qfun n c b H y /\ (qfun n c b H y <= qfun n c b H z -> forall i, (i < n)%nat -> y i = z i)) /\
  (~ posdef n H -> newton_chol n (qgrad n b H x) H x = Raise ValueError).
Proof.
  intros S. unfold newton_chol. destruct (chol n H) as [L|] eqn:E.
  - split; [|intros N; destruct N; apply chol_posdef; eauto]. intros PD. eexists. split; [reflexivity|].
    destruct (chol_spec n H L S E) as (M & LO & PDg). apply qfun_min; auto. intros i Hi. unfold qgrad at 1. rewrite mv_plus.
    rewrite (chol_solve_spec n H L M LO (posdiag_nz _ _ PDg)) by auto. unfold qgrad. lra.
  - split; auto. intros PD. apply (chol_posdef n H S) in PD. destruct PD as [L EL]. congruence.
Qed.
(** a zero row: no Cholesky decomposition *)
Lemma zero_row_not_posdef n H k : (k < n)%nat -> (forall j, (j < n)%nat -> H k j = 0) -> ~ posdef n H.
Proof.
  intros Hk Z PD. specialize (PD (fun i => delta k i)).
  assert (Q : quad n H (fun i => delta k i) = 0).
  { unfold quad. rewrite (sm_delta n k) by auto. apply sm_0. intros j Hj. rewrite Z by auto. lra. }
  rewrite Q in PD. assert (0 < 0); [|lra]. apply PD. exists k. split; auto. unfold delta. rewrite Nat.eqb_refl. lra.
Qed.

(** *** conjugate gradients *)
Lemma norm_0 n v : norm n v = 0 <-> forall i, (i < n)%nat -> v i = 0.
Proof.
  unfold norm. split.
  - intros E. apply vdot_self_0. apply sqrt_eq_0; auto. apply vdot_nonneg.
  - intros Z. replace (vdot n v v) with 0; [apply sqrt_0|]. symmetry. apply sm_0. intros i Hi. rewrite Z by auto. lra.
Qed.
Section CG.
  Variables (n : nat) (H : nat -> nat -> R) (fl : nat -> bool).
  Let inV := floats_only n fl.
  Hypothesis (SY : sym n H).
  Hypothesis (HV : forall i j, (i < n)%nat -> (j < n)%nat -> fl i = false -> H i j = 0).
  Hypothesis (PDV : forall x, inV x -> nonzero n x -> 0 < quad n H x).
  Variable b : nat -> R.
  Hypothesis (BV : inV b).
  Let A := mv n H.
  (** the sequence of the method without stopping *)
  Fixpoint st (k : nat) : cgst :=
    match k with
    | O => mkCg (fun _ => 0) b b 0
    | S k' => let s := st k' in
              let rho := vdot n (cg_r s) (cg_r s) in
              let alpha := rho / vdot n (cg_p s) (A (cg_p s)) in
              let r := fun i => cg_r s i - alpha * A (cg_p s) i in
              let rho' := vdot n r r in
              mkCg (fun i => cg_x s i + alpha * cg_p s i) r (fun i => r i + rho' / rho * cg_p s i) 0
    end.
  Definition Rk k := cg_r (st k).
  Definition Pk k := cg_p (st k).
  Definition rho k := vdot n (Rk k) (Rk k).
  Definition al k := rho k / vdot n (Pk k) (A (Pk k)).
  Lemma R_S k i : Rk (S k) i = Rk k i - al k * A (Pk k) i. Proof. reflexivity. Qed.
  Lemma P_S k i : Pk (S k) i = Rk (S k) i + rho (S k) / rho k * Pk k i. Proof. reflexivity. Qed.
  Lemma X_S k i : cg_x (st (S k)) i = cg_x (st k) i + al k * Pk k i. Proof. reflexivity. Qed.
  Lemma dotR k v : vdot n v (Rk (S k)) = vdot n v (Rk k) - al k * vdot n v (A (Pk k)).
  Proof. unfold vdot. rewrite <- sm_scal, <- sm_minus. apply sm_ext. intros i _. rewrite R_S. ring. Qed.
  Lemma dotP k v : vdot n v (Pk (S k)) = vdot n v (Rk (S k)) + rho (S k) / rho k * vdot n v (Pk k).
  Proof. unfold vdot. rewrite <- sm_scal, <- sm_plus. apply sm_ext. intros i _. rewrite P_S. ring. Qed.
  Lemma inV_st k : inV (Rk k) /\ inV (Pk k) /\ inV (cg_x (st k)).
  Proof.
    induction k as [|k (I1 & I2 & I3)]; [split; [exact BV|split; [exact BV|intros i _ _; reflexivity]]|].
    assert (AZ : forall i, (i < n)%nat -> fl i = false -> A (Pk k) i = 0).
    { intros i Hi F. apply sm_0. intros j Hj. rewrite HV by auto. lra. }
    assert (J : inV (Rk (S k))). { intros i Hi F. rewrite R_S, I1, AZ by auto. lra. }
    split; [auto|]. split; intros i Hi F.
    - rewrite P_S, J, I2 by auto. lra.
    - rewrite X_S, I3, I2 by auto. lra.
  Qed.
  Lemma resid k i : (i < n)%nat -> Rk k i = b i - A (cg_x (st k)) i.
  Proof.
    intros Hi. induction k as [|k IH].
    - change (Rk 0 i) with (b i). unfold A, mv. rewrite sm_0; [lra|]. intros j _. cbn. lra.
    - rewrite R_S, IH. unfold A, mv.
      assert (E : sm n (fun j => H i j * cg_x (st (S k)) j) = sm n (fun j => H i j * cg_x (st k) j) + al k * sm n (fun j => H i j * Pk k j)).
      { rewrite <- sm_scal, <- sm_plus. apply sm_ext. intros j _. rewrite X_S. ring. }
      rewrite E. ring.
  Qed.
  (** orthogonality up to step k as long as no residual vanishes *)
  Record inv (k : nat) : Prop := {
    i_orth : forall i j, (i < j <= k)%nat -> vdot n (Rk i) (Rk j) = 0;
    i_conj : forall i j, (i < j <= k)%nat -> vdot n (Pk i) (A (Pk j)) = 0;
    i_pr : forall j, (j <= k)%nat -> vdot n (Pk j) (Rk j) = rho j;
    i_pap : forall j, (j <= k)%nat -> 0 < vdot n (Pk j) (A (Pk j)) }.
  Lemma rho_pos k : nonzero n (Rk k) -> 0 < rho k.
  Proof.
    intros (i & Hi & X). destruct (Rtotal_order (rho k) 0) as [T|[T|T]]; auto.
    - assert (Q := vdot_nonneg n (Rk k)). unfold rho in T. lra.
    - elim X. apply (vdot_self_0 n (Rk k)); auto.
  Qed.
  Lemma pap_pos k : 0 < rho k -> vdot n (Pk k) (Rk k) = rho k -> 0 < vdot n (Pk k) (A (Pk k)).
  Proof.
    intros P E. apply PDV; [apply inV_st|]. destruct (nonzero_dec n (Pk k)) as [|Z]; auto.
    exfalso. unfold vdot in E. rewrite sm_0 in E; [lra|]. intros i Hi. rewrite Z by auto. lra.
  Qed.
  Lemma Asym x y : vdot n x (A y) = vdot n y (A x). Proof. apply mv_sym; auto. Qed.
  Lemma inv_all k : (forall j, (j <= k)%nat -> nonzero n (Rk j)) -> inv k.
  Proof.
    induction k as [|k IH]; intros NZ.
    - split; intros i; [intros j ?; lia|intros j ?; lia| |]; intros Hi; replace i with O by lia; [reflexivity|].
      apply pap_pos; [apply rho_pos; apply NZ; lia|reflexivity].
    - destruct IH as [O C PR PAP]; [intros j Hj; apply NZ; lia|].
      assert (RP : forall j, (j <= S k)%nat -> 0 < rho j) by (intros j Hj; apply rho_pos; apply NZ; auto).
      assert (AL : forall j, (j <= k)%nat -> al j * vdot n (Pk j) (A (Pk j)) = rho j).
      { intros j Hj. unfold al. field. specialize (PAP j Hj). lra. }
      (* A P_k . R_i *)
      assert (APR : forall i, (i <= k)%nat -> vdot n (Rk i) (A (Pk k)) = if Nat.eqb i k then vdot n (Pk k) (A (Pk k)) else 0).
      { intros i Hi. destruct i as [|i].
        - change (Rk 0) with (Pk 0). destruct (Nat.eqb_spec 0 k) as [<-|Ne]; auto. apply C. lia.
        - assert (E : vdot n (Rk (S i)) (A (Pk k)) = vdot n (Pk (S i)) (A (Pk k)) - rho (S i) / rho i * vdot n (Pk i) (A (Pk k))).
          { rewrite !(vdot_sym n _ (A (Pk k))). rewrite dotP. ring. }
          rewrite E. rewrite (C i k) by lia. destruct (Nat.eqb_spec (S i) k) as [<-|Ne]; [lra|]. rewrite C by lia. lra. }
      assert (ORT : forall i, (i <= k)%nat -> vdot n (Rk i) (Rk (S k)) = 0).
      { intros i Hi. rewrite dotR, APR by auto. destruct (Nat.eqb_spec i k) as [->|Ne].
        - rewrite AL by lia. unfold rho. lra.
        - rewrite O by lia. lra. }
      assert (PR1 : vdot n (Pk (S k)) (Rk (S k)) = rho (S k)).
      { rewrite vdot_sym, dotP. rewrite (vdot_sym n (Rk (S k)) (Pk k)), (dotR k (Pk k)), PR, AL by lia. change (vdot n (Rk (S k)) (Rk (S k))) with (rho (S k)). ring. }
      assert (AP1 : 0 < vdot n (Pk (S k)) (A (Pk (S k)))) by (apply pap_pos; auto).
      (* R_{k+1} . A P_i *)
      assert (RAP : forall i, (i <= k)%nat -> vdot n (Rk (S k)) (A (Pk i)) = if Nat.eqb i k then - rho (S k) / al k else 0).
      { intros i Hi. assert (Al : al i <> 0).
        { specialize (AL i Hi). specialize (RP i ltac:(lia)). intros Z. rewrite Z in AL. lra. }
        assert (E := dotR i (Rk (S k))).
        destruct (Nat.eqb_spec i k) as [->|Ne].
        - rewrite (vdot_sym n (Rk (S k)) (Rk k)), (ORT k (le_n k)) in E. change (vdot n (Rk (S k)) (Rk (S k))) with (rho (S k)) in E.
          apply (Rmult_eq_reg_l (al k)); auto. transitivity (- rho (S k)); [lra|field; auto].
        - rewrite !(vdot_sym n (Rk (S k))) in E. rewrite !ORT in E by lia. apply (Rmult_eq_reg_l (al i)); auto.
          rewrite (vdot_sym n (Rk (S k)) (A (Pk i))). lra. }
      assert (CON : forall i, (i <= k)%nat -> vdot n (Pk i) (A (Pk (S k))) = 0).
      { intros i Hi. rewrite Asym, (vdot_sym n (Pk (S k))), dotP, (vdot_sym n _ (Rk (S k))), RAP, (vdot_sym n _ (Pk k)) by auto.
        destruct (Nat.eqb_spec i k) as [->|Ne].
        - assert (P := PAP k ltac:(lia)). assert (Q := RP k ltac:(lia)). unfold al. field. lra.
        - rewrite Asym, C by lia. lra. }
      split; intros i.
      + intros j Hij. destruct (Nat.eq_dec j (S k)) as [->|]; [apply ORT; lia|apply O; lia].
      + intros j Hij. destruct (Nat.eq_dec j (S k)) as [->|]; [apply CON; lia|apply C; lia].
      + intros Hi. destruct (Nat.eq_dec i (S k)) as [->|]; [auto|apply PR; lia].
      + intros Hi. destruct (Nat.eq_dec i (S k)) as [->|]; [auto|apply PAP; lia].
  Qed.
  (** not more than n orthogonal non-zero vectors *)
  Lemma bessel m (u : nat -> nat -> R) : (forall i j, (i < j < m)%nat -> vdot n (u i) (u j) = 0) -> (forall i, (i < m)%nat -> vdot n (u i) (u i) = 1) -> INR m <= INR n.
  Proof.
    intros O N.
    (* for every coordinate c: sum_k u_k(c)^2 <= 1 *)
    assert (ON : forall i j, (i < m)%nat -> (j < m)%nat -> vdot n (u i) (u j) = delta i j).
    { intros i j Hi Hj. unfold delta. destruct (Nat.eqb_spec i j) as [->|Ne]; [auto|]. destruct (Nat.lt_ge_cases i j); [apply O; lia|]. rewrite vdot_sym. apply O. lia. }
    assert (B : forall c, (c < n)%nat -> sm m (fun k => u k c * u k c) <= 1).
    { intros c Hc. set (w := fun i => delta c i - sm m (fun k => u k c * u k i)).
      assert (Q := vdot_nonneg n w).
      assert (E : vdot n w w = 1 - sm m (fun k => u k c * u k c)).
      { set (s := fun i => sm m (fun k => u k c * u k i)).
        assert (E1 : vdot n (delta c) (delta c) = 1). { unfold vdot. rewrite sm_delta by auto. unfold delta. rewrite Nat.eqb_refl. auto. }
        assert (E2 : vdot n (delta c) s = sm m (fun k => u k c * u k c)). { unfold vdot. rewrite sm_delta by auto. reflexivity. }
        assert (E3 : vdot n s s = sm m (fun k => u k c * u k c)).
        { unfold vdot, s. transitivity (sm n (fun i => sm m (fun k => sm m (fun l => u k c * u l c * (u k i * u l i))))).
          - apply sm_ext. intros i _. rewrite <- sm_scalr. apply sm_ext. intros k _. rewrite <- sm_scal. apply sm_ext. intros; ring.
          - rewrite sm_swap. apply sm_ext. intros k Hk. rewrite sm_swap.
            transitivity (sm m (fun l => delta k l * (u k c * u l c))); [|rewrite (sm_delta m k (fun l => u k c * u l c)); auto].
            apply sm_ext. intros l Hl. rewrite sm_scal. change (sm n (fun i => u k i * u l i)) with (vdot n (u k) (u l)). rewrite ON by auto. ring. }
        change w with (fun i => delta c i - s i). rewrite vdot_minus_r, !(vdot_sym n (fun i => delta c i - s i)), !vdot_minus_r.
        rewrite (vdot_sym n s (delta c)), E1, E2, E3. lra. }
      lra. }
    assert (T : sm n (fun c => sm m (fun k => u k c * u k c)) = INR m).
    { rewrite sm_swap. transitivity (sm m (fun _ => 1)).
      - apply sm_ext. intros k Hk. exact (N k Hk).
      - clear. induction m; [reflexivity|]. rewrite S_INR. cbn [sm]. rewrite IHm. lra. }
    rewrite <- T. clear -B. assert (Z : forall q f, (forall c, (c < q)%nat -> f c <= 1) -> sm q f <= INR q).
    { induction q; intros f Hf; [cbn; lra|]. rewrite S_INR. cbn [sm]. assert (f O <= 1) by (apply Hf; lia).
      assert (sm q (fun i => f (S i)) <= INR q) by (apply IHq; intros; apply Hf; lia). lra. }
    apply Z. auto.
  Qed.
  Lemma some_zero : exists k, (k <= n)%nat /\ forall i, (i < n)%nat -> Rk k i = 0.
  Proof.
    assert (D : (exists k, (k <= n)%nat /\ forall i, (i < n)%nat -> Rk k i = 0) \/ forall k, (k <= n)%nat -> nonzero n (Rk k)).
    { assert (X : forall m, (exists k, (k <= m)%nat /\ forall i, (i < n)%nat -> Rk k i = 0) \/ forall k, (k <= m)%nat -> nonzero n (Rk k)).
      { induction m as [|m [(k & Hk & Z)|N]].
        - destruct (nonzero_dec n (Rk 0)) as [N|Z]; [right|left; exists O; auto]. intros k Hk. replace k with O by lia. auto.
        - left. exists k. split; auto.
        - destruct (nonzero_dec n (Rk (S m))) as [N'|Z]; [right|left; exists (S m); auto]. intros k Hk. destruct (Nat.eq_dec k (S m)) as [->|]; auto. apply N. lia. }
      apply X. }
    destruct D as [|N]; auto. exfalso. assert (I := inv_all n N).
    assert (Q : INR (S n) <= INR n); [|apply INR_le in Q; lia].
    apply (bessel (S n) (fun k i => / sqrt (rho k) * Rk k i)).
    - intros i j Hij. unfold vdot. transitivity (/ sqrt (rho i) * / sqrt (rho j) * vdot n (Rk i) (Rk j)).
      + unfold vdot. rewrite <- sm_scal. apply sm_ext. intros; ring.
      + rewrite (i_orth n I) by lia. lra.
    - intros i Hi. assert (P := rho_pos i (N i ltac:(lia))). assert (P2 := sqrt_lt_R0 _ P).
      transitivity (/ sqrt (rho i) * / sqrt (rho i) * rho i).
      + generalize (/ sqrt (rho i)). intros c. unfold rho, vdot. rewrite <- sm_scal. apply sm_ext. intros; ring.
      + rewrite <- (sqrt_sqrt (rho i)) at 3 by lra. field. lra.
  Qed.
  (** the loop follows the sequence *)
  Variable tol : R.
  Hypothesis (TP : 0 < tol).
  Lemma loop_spec m : forall k s (first : bool), (m + k >= n + 1)%nat ->
    (forall j, (j < k)%nat -> nonzero n (Rk j)) ->
    cg_x s = cg_x (st k) -> cg_r s = Rk k ->
    (if first then k = O else exists k', k = S k' /\ cg_p s = Pk k' /\ cg_rho s = rho k') ->
    exists j, cg_loop n A tol m first s = Some (cg_x (st j)) /\ norm n (Rk j) < tol.
  Proof.
    induction m as [|m IH]; intros k s first M NZ EX ER EP.
    - exfalso. destruct some_zero as (j & Hj & Z). destruct (NZ j ltac:(lia)) as (i & Hi & X). elim X. auto.
    - cbn [cg_loop]. rewrite ER, EX. destruct (Rlt_dec (norm n (Rk k)) tol) as [Lt|Ge]; [exists k; auto|].
      assert (N : nonzero n (Rk k)).
      { destruct (nonzero_dec n (Rk k)) as [|Z]; auto. exfalso. apply Ge. rewrite (proj2 (norm_0 n (Rk k))) by auto. auto. }
      assert (I : inv k) by (apply inv_all; intros j Hj; destruct (Nat.eq_dec j k) as [->|]; auto; apply NZ; lia).
      assert (EPk : (if first then cg_r s else fun i => cg_r s i + vdot n (cg_r s) (cg_r s) / cg_rho s * cg_p s i) = Pk k).
      { rewrite ER. destruct first; [subst; reflexivity|]. destruct EP as (k' & -> & -> & ->). reflexivity. }
      unfold cg_step. rewrite EPk. assert (PP := i_pap k I k (le_n k)).
      destruct (Req_EM_T (vdot n (Pk k) (A (Pk k))) 0) as [Z|_]; [lra|].
      rewrite ER, EX. apply (IH (S k)); try reflexivity; [lia| |exists k; auto].
      intros j Hj. destruct (Nat.eq_dec j k) as [->|]; auto. apply NZ. lia.
  Qed.
End CG.

Lemma cg_spec n H fl b rtol : sym n H ->
  (forall i j, (i < n)%nat -> (j < n)%nat -> fl i = false -> H i j = 0) ->
  (forall x, floats_only n fl x -> nonzero n x -> 0 < quad n H x) -> floats_only n fl b -> 0 < rtol ->
  exists dx, cg n (mv n H) rtol b = Some dx /\ floats_only n fl dx /\ norm n (fun i => b i - mv n H dx i) <= rtol * norm n b.
Proof.
  intros S HV PD BV RT. unfold cg. destruct (Req_EM_T (norm n b) 0) as [Z|NZ].
  - exists b. split; [auto|]. split; [auto|]. rewrite Z, Rmult_0_r. apply Req_le. apply norm_0. rewrite norm_0 in Z.
    intros i Hi. unfold mv. rewrite Z, sm_0; auto; [lra|]. intros j Hj. rewrite Z by auto. lra.
  - assert (NP : 0 < norm n b). { assert (Q := sqrt_pos (vdot n b b)). unfold norm in *. lra. }
    destruct (loop_spec n H fl S HV PD b BV (rtol * norm n b) (Rmult_lt_0_compat _ _ RT NP) (10 * n) O
               (mkCg (fun _ => 0) b (fun _ => 0) 0) true) as (j & E & L); try reflexivity.
    + destruct n; [|lia]. elim NZ. apply norm_0. lia.
    + intros j Hj. lia.
    + exists (cg_x (st n H b j)). split; [exact E|]. split; [apply (inV_st n H fl HV b BV j)|]. apply Rlt_le.
      replace (norm n (fun i => b i - mv n H (cg_x (st n H b j)) i)) with (norm n (Rk n H b j)); auto.
      unfold norm. f_equal. apply vdot_ext; intros; apply resid; auto.
Qed.
Lemma maskm_quad n fl H x : floats_only n fl x -> quad n (maskm fl H) x = quad n H x.
Proof.
  intros V. unfold quad. apply sm_ext. intros i Hi. unfold maskm, mv. destruct (fl i) eqn:F.
  - f_equal. apply sm_ext. intros j Hj. destruct (fl j) eqn:F2; auto. rewrite (V j) by auto. lra.
  - rewrite (V i) by auto. lra.
Qed.
Lemma norm_ext n v w : (forall i, (i < n)%nat -> v i = w i) -> norm n v = norm n w.
Proof. intros H. unfold norm. f_equal. apply vdot_ext; auto. Qed.
Lemma norm_opp n v : norm n (fun i => - v i) = norm n v.
Proof. unfold norm. f_equal. apply sm_ext. intros; ring. Qed.
Theorem newton_cg_spec n fl b H x : sym n H -> (forall d, floats_only n fl d -> nonzero n d -> 0 < quad n H d) ->
  exists z, newton_cg n (maskv fl (qgrad n b H x)) (mv n (maskm fl H)) x = Ok z /\
    (forall i, (i < n)%nat -> fl i = false -> z i = x i) /\
    norm n (maskv fl (qgrad n b H z)) <= / 10000000000 * norm n (maskv fl (qgrad n b H x)).
Proof.
  intros S PD. unfold newton_cg.
  destruct (cg_spec n (maskm fl H) fl (fun i => - maskv fl (qgrad n b H x) i) (/ 10000000000)) as (dx & E & V & N).
  - intros i j Hi Hj. unfold maskm. destruct (fl i), (fl j); auto.
  - intros i j Hi Hj F. unfold maskm. rewrite F. auto.
  - intros d V NZ. rewrite maskm_quad by auto. auto.
  - intros i Hi F. unfold maskv. rewrite F. lra.
  - lra.
  - rewrite E. eexists. split; [reflexivity|]. split; [intros i Hi F; rewrite (V i Hi F); lra|].
    rewrite norm_opp in N. refine (Rle_trans _ _ _ (Req_le _ _ _) N). rewrite <- norm_opp. apply norm_ext. intros i Hi.
    unfold maskv. destruct (fl i) eqn:F.
    + unfold qgrad. rewrite mv_plus. assert (E2 : mv n H dx i = mv n (maskm fl H) dx i); [|lra].
      unfold mv. apply sm_ext. intros j Hj. unfold maskm. rewrite F. destruct (fl j) eqn:F2; auto. rewrite (V j) by auto. lra.
    + assert (E2 : mv n (maskm fl H) dx i = 0); [|lra]. unfold mv. apply sm_0. intros j Hj. unfold maskm. rewrite F. lra.
Qed.
Lemma chol_frozen n fl H g x k : sym n H -> (k < n)%nat -> fl k = false -> newton_chol n g (maskm fl H) x = Raise ValueError.
Proof.
  intros S Hk F. unfold newton_chol. destruct (chol n (maskm fl H)) as [L|] eqn:E; auto. exfalso.
  apply (zero_row_not_posdef n (maskm fl H) k Hk); [intros j Hj; unfold maskm; rewrite F; auto|].
  apply chol_posdef; eauto. intros i j Hi Hj. unfold maskm. destruct (fl i), (fl j); auto.
Qed.
(** a covariance row of a frozen parameter *)
Lemma cg_row_frozen n fl H rtol k : (k < n)%nat -> fl k = false -> rtol <= 1 -> cg n (mv n (maskm fl H)) rtol (fun i => delta i k) = None.
Proof.
  intros Hk F RT. unfold cg.
  assert (N1 : norm n (fun i => delta i k) = 1).
  { unfold norm. replace (vdot n (fun i => delta i k) (fun i => delta i k)) with 1; [apply sqrt_1|].
    unfold vdot. rewrite sm_delta' by auto. unfold delta. rewrite Nat.eqb_refl. auto. }
  rewrite N1. destruct (Req_EM_T 1 0); [lra|]. destruct n as [|n']; [lia|]. remember (S n') as n. replace (10 * n)%nat with (S (10 * n - 1)) by lia.
  cbn [cg_loop cg_r]. rewrite N1. destruct (Rlt_dec 1 (rtol * 1)); [lra|]. unfold cg_step. cbn [cg_r].
  destruct (Req_EM_T _ 0) as [|Ne]; auto. elim Ne. apply sm_0. intros i Hi. unfold mv. rewrite sm_0; [lra|].
  intros j Hj. unfold maskm, delta. destruct (Nat.eqb_spec j k) as [->|]; [rewrite F; destruct (fl i); lra|lra].
Qed.

(** *** covariance of the floating block *)
Lemma sm_list f : forall l, sm (List.length l) (fun a => f (nth a l O)) = lsum f l.
Proof. induction l as [|a l IH]; [reflexivity|]. cbn [List.length sm nth]. rewrite IH. reflexivity. Qed.
Lemma index_of_nth l : NoDup l -> forall a, (a < List.length l)%nat -> index_of l (nth a l O) = Some a.
Proof.
  induction 1 as [|x l N ND IH]; intros a Ha; [cbn in Ha; lia|]. cbn [index_of nth List.length] in *. destruct a as [|a].
  - rewrite Nat.eqb_refl. auto.
  - destruct (Nat.eqb_spec x (nth a l O)) as [E|E].
    + elim N. rewrite E. apply nth_In. lia.
    + rewrite IH by lia. auto.
Qed.
Lemma index_of_none l i : ~ In i l -> index_of l i = None.
Proof. induction l as [|a l IH]; intros N; auto. cbn. destruct (Nat.eqb_spec a i) as [->|]; [elim N; left; auto|]. rewrite IH; auto. intros X. apply N. right. auto. Qed.
Definition lib_ok (gpu : bool) (n : nat) (g : nat -> R) (A : nat -> nat -> R) (e : R) (c : nat -> nat -> R) : Prop :=
  e = 1 / 2 * vdot n g (mv n c g) /\ (forall i j, (i < n)%nat -> (j < n)%nat -> mm n A c i j = delta i j) /\ sym n c.
Lemma chol_ext n : forall A B, (forall i j, (i < n)%nat -> (j < n)%nat -> A i j = B i j) ->
  match chol n A, chol n B with
  | None, None => True
  | Some L, Some M => forall i j, (i < n)%nat -> (j < n)%nat -> L i j = M i j
  | _, _ => False
  end.
Proof.
  induction n as [|n IH]; intros A B E; cbn [chol]; [intros; lia|]. rewrite (E O O) by lia. destruct (Rlt_dec 0 (B O O)) as [P|]; auto.
  specialize (IH (fun i j => A (S i) (S j) - A (S i) O / sqrt (B O O) * (A (S j) O / sqrt (B O O)))
                 (fun i j => B (S i) (S j) - B (S i) O / sqrt (B O O) * (B (S j) O / sqrt (B O O)))).
  destruct (chol n (fun i j => A (S i) (S j) - A (S i) O / sqrt (B O O) * (A (S j) O / sqrt (B O O)))) as [L|] eqn:E1,
           (chol n (fun i j => B (S i) (S j) - B (S i) O / sqrt (B O O) * (B (S j) O / sqrt (B O O)))) as [M|] eqn:E2; auto;
    try (apply IH; intros i j Hi Hj; rewrite !E by lia; auto).
  intros [|i] [|j] Hi Hj; auto; [rewrite !E by lia; auto..|]. apply IH; try lia. intros; rewrite !E by lia; auto.
Qed.
Lemma lib_spec gpu n g A : sym n A ->
  (posdef n A -> exists e c, lib_edmval_cov gpu n g A = Ok (e, c) /\ lib_ok gpu n g A e c) /\
  (~ posdef n A -> lib_edmval_cov gpu n g A = Raise ValueError).
Proof.
  intros S.
  assert (SOLV : forall L c, (forall i j, (i < n)%nat -> (j < n)%nat -> mm n A c i j = delta i j) -> posdef n A ->
            (forall i, (i < n)%nat -> mv n A (chol_solve n L g) i = g i) -> forall i, (i < n)%nat -> chol_solve n L g i = mv n c g i).
  { intros L c I PD M i Hi. apply Rminus_diag_uniq. apply (posdef_inj n A (fun i => chol_solve n L g i - mv n c g i) PD); auto.
    intros k Hk. rewrite mv_minus, M, mv_assoc by auto. transitivity (g k - sm n (fun j => delta k j * g j)).
    - f_equal. apply sm_ext. intros j Hj. rewrite I by auto. auto.
    - rewrite sm_delta by auto. lra. }
  destruct gpu; cbn [lib_edmval_cov].
  - unfold tf_edmval_cov. destruct (chol n A) as [L|] eqn:E; [split|split; auto].
    + intros PD. eexists _, _. split; [reflexivity|]. destruct (chol_spec n A L S E) as (M & LO & P). assert (NZ := posdiag_nz _ _ P).
      assert (I : forall i j, (i < n)%nat -> (j < n)%nat -> mm n A (fun i j => chol_solve n L (fun k => delta k j) i) i j = delta i j).
      { intros i j Hi Hj. exact (chol_solve_spec n A L M LO NZ (fun k => delta k j) i Hi). }
      split; [|split]; auto.
      * f_equal. apply vdot_ext; auto. intros i Hi. apply (SOLV L _ I PD); auto. intros; apply (chol_solve_spec n A L M LO NZ); auto.
      * intros i j Hi Hj. assert (Q := posdef_inv_unique n A _ _ PD I (cho_inv_spec n A L M LO NZ)).
        rewrite !Q by auto. apply cho_inv_sym.
    + intros N. destruct N. apply chol_posdef; eauto.
    + intros PD. apply chol_posdef in PD; auto. destruct PD as [L E2]. congruence.
  - unfold scipy_edmval_cov. assert (ST : sym n (fun i j => A j i)) by (intros i j Hi Hj; symmetry; apply S; auto).
    destruct (chol n (fun i j => A j i)) as [L|] eqn:E.
    + destruct (chol_spec n _ L ST E) as (M' & LO & P). assert (NZ := posdiag_nz _ _ P).
      assert (M : forall i j, (i < n)%nat -> (j < n)%nat -> sm n (fun k => L i k * L j k) = A i j).
      { intros i j Hi Hj. rewrite (M' i j) by auto. symmetry. apply S; auto. }
      assert (PDA : posdef n A).
      { apply chol_posdef; auto. assert (X := chol_ext n A (fun i j => A j i)). rewrite E in X. destruct (chol n A); eauto. elim X. intros; apply S; auto. }
      split; [|intros N; destruct (N PDA)]. intros PD. eexists _, _. split; [reflexivity|].
      assert (I := cho_inv_spec n A L M LO NZ).
      split; [|split]; auto.
      * f_equal. apply vdot_ext; auto. intros i Hi. apply (SOLV L _ I PD); auto. intros; apply (chol_solve_spec n A L M LO NZ); auto.
      * intros i j Hi Hj. apply cho_inv_sym.
    + split; auto. intros PD. apply chol_posdef in PD; auto. destruct PD as [L E2].
      assert (X := chol_ext n A (fun i j => A j i)). rewrite E, E2 in X. elim X. intros; apply S; auto.
Qed.

(** *** floating block *)
Lemma lsum_ext f g l : (forall i, In i l -> f i = g i) -> lsum f l = lsum g l.
Proof. intros H. unfold lsum. f_equal. apply map_ext_in. auto. Qed.
Lemma lsum_scal c f l : lsum (fun i => c * f i) l = c * lsum f l.
Proof. unfold lsum. induction l as [|a l IH]; cbn; [lra|]. rewrite IH. lra. Qed.
Lemma in_nth (l : list nat) i : In i l -> exists a, (a < List.length l)%nat /\ nth a l O = i.
Proof. intros H. destruct (In_nth l i O H) as (a & Ha & E). eauto. Qed.
Definition gat (fl : list nat) (H : nat -> nat -> R) (a b : nat) : R := H (nth a fl O) (nth b fl O).
Definition extend (fl : list nat) (v : nat -> R) (i : nat) : R := match index_of fl i with Some a => v a | None => 0 end.
Lemma block_quad fl H v : lsum (fun i => lsum (fun j => v i * H i j * v j) fl) fl = quad (List.length fl) (gat fl H) (fun a => v (nth a fl O)).
Proof.
  rewrite <- sm_list. unfold quad. apply sm_ext. intros a _. rewrite <- sm_list. unfold mv. rewrite <- sm_scal. apply sm_ext. intros b _. unfold gat. ring.
Qed.
Lemma block_pd_iff fl H : NoDup fl -> (block_posdef fl H <-> posdef (List.length fl) (gat fl H)).
Proof.
  intros ND. split.
  - intros B v (a & Ha & Va). specialize (B (extend fl v)). rewrite block_quad in B.
    rewrite (quad_ext (List.length fl) (gat fl H) v (fun a => extend fl v (nth a fl O))).
    + apply B. exists (nth a fl O). split; [apply nth_In; auto|]. unfold extend. rewrite index_of_nth by auto. auto.
    + intros i Hi. unfold extend. rewrite index_of_nth by auto. auto.
  - intros B v (i & Hi & Vi). rewrite block_quad. apply B. destruct (in_nth fl i Hi) as (a & Ha & E). exists a. rewrite E. auto.
Qed.
Lemma block_sym_gat fl H : block_sym fl H -> sym (List.length fl) (gat fl H).
Proof. intros S a b Ha Hb. apply S; apply nth_In; auto. Qed.
Definition cov_ok (fl : list nat) (cov0 : nat -> nat -> R) (g : nat -> R) (H : nat -> nat -> R) (e : R) (c : nat -> nat -> R) : Prop :=
  (forall i j, In i fl -> In j fl -> lsum (fun k => H i k * c k j) fl = if Nat.eqb i j then 1 else 0) /\
  (forall i j, In i fl -> In j fl -> c i j = c j i) /\
  (forall i j, ~ In i fl \/ ~ In j fl -> c i j = cov0 i j) /\
  e = 1 / 2 * lsum (fun i => lsum (fun j => g i * c i j * g j) fl) fl.
Theorem edmval_cov_frozen gpu n fl cov0 g H : NoDup fl -> block_sym fl H ->
  (block_posdef fl H -> exists e c, edmval_cov gpu n true fl cov0 g H = Ok (e, c) /\ cov_ok fl cov0 g H e c) /\
  (~ block_posdef fl H -> edmval_cov gpu n true fl cov0 g H = Raise ValueError).
Proof.
  intros ND SB. destruct (lib_spec gpu (List.length fl) (fun a => g (nth a fl O)) (gat fl H) (block_sym_gat fl H SB)) as (A & B).
  rewrite (block_pd_iff fl H ND). split.
  - intros PD. destruct (A PD) as (e & c & E & (E1 & E2 & E3)). unfold edmval_cov. fold (gat fl H).
    change (fun a b => H (nth a fl O) (nth b fl O)) with (gat fl H). rewrite E. cbn [rbind fst snd]. eexists _, _. split; [reflexivity|].
    assert (SC : forall a b, (a < List.length fl)%nat -> (b < List.length fl)%nat -> scatter_cov cov0 fl c (nth a fl O) (nth b fl O) = c a b).
    { intros a b Ha Hb. unfold scatter_cov. rewrite !index_of_nth by auto. auto. }
    repeat split.
    + intros i j Hi Hj. destruct (in_nth fl i Hi) as (a & Ha & <-). destruct (in_nth fl j Hj) as (b & Hb & <-). rewrite <- sm_list.
      transitivity (delta a b).
      * rewrite <- E2 by auto. apply sm_ext. intros k Hk. rewrite SC by auto. reflexivity.
      * unfold delta. destruct (Nat.eqb_spec a b) as [->|Ne]; [rewrite Nat.eqb_refl; auto|].
        destruct (Nat.eqb_spec (nth a fl O) (nth b fl O)) as [X|]; auto. elim Ne. apply (proj1 (NoDup_nth fl O) ND); auto.
    + intros i j Hi Hj. destruct (in_nth fl i Hi) as (a & Ha & <-). destruct (in_nth fl j Hj) as (b & Hb & <-). rewrite !SC by auto. auto.
    + intros i j [N|N]; unfold scatter_cov; [rewrite (index_of_none fl i N); auto|]. rewrite (index_of_none fl j N). destruct (index_of fl i); auto.
    + rewrite E1. f_equal. rewrite <- sm_list. unfold vdot. apply sm_ext. intros a Ha. rewrite <- sm_list. unfold mv. rewrite <- sm_scal. apply sm_ext.
      intros b Hb. rewrite SC by auto. ring.
  - intros N. unfold edmval_cov. change (fun a b => H (nth a fl O) (nth b fl O)) with (gat fl H). rewrite (B N). reflexivity.
Qed.
Lemma lsum_seq f n : lsum f (seq 0 n) = sm n f.
Proof. rewrite <- sm_list, seq_length. apply sm_ext. intros i Hi. rewrite seq_nth by auto. auto. Qed.
(** only the floating block of the Hessian and the floating gradient are read *)
Lemma chol_ext_eq n A B : (forall i j, (i < n)%nat -> (j < n)%nat -> A i j = B i j) ->
  forall L, chol n A = Some L -> exists M, chol n B = Some M /\ forall i j, (i < n)%nat -> (j < n)%nat -> L i j = M i j.
Proof. intros E L EL. assert (X := chol_ext n A B E). rewrite EL in X. destruct (chol n B) as [M|]; [eauto|contradiction]. Qed.
(** derivatives of a quadratic function *)
Lemma shift_delta x i t j : shift x i t j = x j + t * delta i j.
Proof. unfold shift, delta. rewrite (Nat.eqb_sym i j). destruct (Nat.eqb j i); ring. Qed.
Lemma poly_deriv a g q : derivable_pt_lim (fun t => a + t * g + t * t * q) 0 g.
Proof.
  intros eps He. assert (P : 0 < eps / (Rabs q + 1)). { apply Rdiv_lt_0_compat; auto. assert (Z := Rabs_pos q). lra. }
  exists (mkposreal _ P). intros h Hh Hb. cbn in Hb. replace ((a + (0 + h) * g + (0 + h) * (0 + h) * q - (a + 0 * g + 0 * 0 * q)) / h - g) with (h * q) by (field; auto).
  rewrite Rabs_mult. assert (Z := Rabs_pos q). assert (Z2 := Rabs_pos h).
  apply Rle_lt_trans with (Rabs h * (Rabs q + 1)); [nra|]. apply Rlt_le_trans with (eps / (Rabs q + 1) * (Rabs q + 1)); [apply Rmult_lt_compat_r; lra|].
  right. field. lra.
Qed.
Lemma deriv_ext f g x l : (forall t, f t = g t) -> derivable_pt_lim f x l -> derivable_pt_lim g x l.
Proof. intros E D eps He. destruct (D eps He) as (d & Hd). exists d. intros h H1 H2. rewrite <- !E. auto. Qed.
Lemma qfun_ext n c b H x y : (forall i, (i < n)%nat -> x i = y i) -> qfun n c b H x = qfun n c b H y.
Proof. intros E. unfold qfun. rewrite (quad_ext n H x y) by auto. f_equal. f_equal. apply vdot_ext; auto. Qed.
Lemma quad_delta n H i t : (i < n)%nat -> quad n H (fun j => t * delta i j) = t * t * H i i.
Proof.
  intros Hi. unfold quad. transitivity (sm n (fun k => delta i k * (t * mv n H (fun j => t * delta i j) k))).
  - apply sm_ext. intros; ring.
  - rewrite (sm_delta n i (fun k => t * mv n H (fun j => t * delta i j) k)) by auto. unfold mv.
    transitivity (t * sm n (fun j => delta i j * (t * H i j))).
    + f_equal. apply sm_ext. intros; ring.
    + rewrite (sm_delta n i (fun j => t * H i j)) by auto. ring.
Qed.
Lemma qfun_partial n c b H x i : sym n H -> (i < n)%nat -> partial (qfun n c b H) x i (qgrad n b H x i).
Proof.
  intros S Hi. unfold partial. eapply deriv_ext; [|apply (poly_deriv (qfun n c b H x) (qgrad n b H x i) (1 / 2 * H i i))].
  intros t. cbn beta. rewrite (qfun_ext n c b H (shift x i t) (fun j => x j + t * delta i j)) by (intros; apply shift_delta).
  rewrite qfun_taylor by auto. rewrite quad_delta by auto.
  assert (V : vdot n (qgrad n b H x) (fun j => t * delta i j) = t * qgrad n b H x i).
  { unfold vdot. transitivity (sm n (fun j => delta i j * (t * qgrad n b H x j))); [apply sm_ext; intros; ring|].
    exact (sm_delta n i (fun j => t * qgrad n b H x j) Hi). }
  rewrite V. lra.
Qed.
Lemma qgrad_partial n b H x i j : (j < n)%nat -> partial (fun y => qgrad n b H y i) x j (H i j).
Proof.
  intros Hj. unfold partial. eapply deriv_ext; [|apply (poly_deriv (qgrad n b H x i) (H i j) 0)].
  intros t. cbn beta. unfold qgrad.
  assert (V : mv n H (shift x j t) i = mv n H x i + t * H i j).
  { unfold mv. transitivity (sm n (fun k => H i k * x k + delta j k * (t * H i k))); [apply sm_ext; intros; rewrite shift_delta; ring|].
    rewrite sm_plus, (sm_delta n j (fun k => t * H i k)) by auto. auto. }
  rewrite V. lra.
Qed.
Lemma norm_norm2 n v : norm n v = norm2 n v.
Proof. unfold norm, norm2. f_equal. apply sm_ext. intros; ring. Qed.

Lemma edmval_cov_leak gpu gpu' n fl cov0 cov0' g g' H H' : NoDup fl -> block_sym fl H -> block_posdef fl H ->
  (forall i j, In i fl -> In j fl -> H' i j = H i j) -> (forall i, In i fl -> g' i = g i) ->
  exists edm c c', edmval_cov gpu n true fl cov0 g H = Ok (edm, c) /\ edmval_cov gpu' n true fl cov0' g' H' = Ok (edm, c') /\
    forall i j, In i fl -> In j fl -> c' i j = c i j.
Proof.
  intros ND S PD EH EG.
  assert (S' : block_sym fl H') by (intros i j Hi Hj; rewrite !EH by auto; auto).
  assert (PD' : block_posdef fl H').
  { intros v N. rewrite (lsum_ext _ (fun i => lsum (fun j => v i * H i j * v j) fl)); [apply PD; auto|].
    intros i Hi. apply lsum_ext. intros j Hj. rewrite EH by auto. auto. }
  destruct (proj1 (edmval_cov_frozen gpu n fl cov0 g H ND S) PD) as (e & c & E & (I & SC & _ & ED)).
  destruct (proj1 (edmval_cov_frozen gpu' n fl cov0' g' H' ND S') PD') as (e' & c' & E' & (I' & SC' & _ & ED')).
  assert (CC : forall i j, In i fl -> In j fl -> c' i j = c i j).
  { intros i j Hi Hj. destruct (in_nth fl i Hi) as (a & Ha & <-). destruct (in_nth fl j Hj) as (b & Hb & <-).
    assert (DD : forall a b, (a < List.length fl)%nat -> (b < List.length fl)%nat -> (if Nat.eqb (nth a fl O) (nth b fl O) then 1 else 0) = delta a b).
    { intros p q Hp Hq. unfold delta. destruct (Nat.eqb_spec p q) as [->|Ne]; [rewrite Nat.eqb_refl; auto|].
      destruct (Nat.eqb_spec (nth p fl O) (nth q fl O)) as [X|]; auto. elim Ne. apply (proj1 (NoDup_nth fl O) ND); auto. }
    apply (posdef_inv_unique (List.length fl) (gat fl H) (gat fl c') (gat fl c)); auto; [apply block_pd_iff; auto| |];
      intros p q Hp Hq; unfold mm; rewrite <- DD by auto.
    - rewrite <- I' by (apply nth_In; auto). rewrite <- sm_list. apply sm_ext. intros k Hk. unfold gat. rewrite EH by (apply nth_In; auto). auto.
    - rewrite <- I by (apply nth_In; auto). rewrite <- sm_list. apply sm_ext. intros k Hk. reflexivity. }
  exists e, c, c'. split; auto. split; auto. rewrite E'. f_equal. f_equal. rewrite ED, ED'. f_equal. apply lsum_ext. intros i Hi. apply lsum_ext. intros j Hj.
  rewrite !EG, CC by auto. auto.
Qed.
Lemma hessfree_spec n fl H rtol g rows : sym n H -> (forall d, floats_only n fl d -> nonzero n d -> 0 < quad n H d) ->
  0 < rtol -> floats_only n fl g -> (forall i, In i rows -> (i < n)%nat) -> rtol <= 1 ->
  ((forall i, In i rows -> fl i = true) ->
    exists edm cs, cov_rows_hessfree n (mv n (maskm fl H)) rtol g rows = Ok (edm, cs) /\ List.length cs = List.length rows /\
      (exists v, edm = 1 / 2 * vdot n g v /\ floats_only n fl v /\ norm2 n (fun i => g i - mv n (maskm fl H) v i) <= rtol * norm2 n g) /\
      forall k, (k < List.length rows)%nat -> let c := nth k cs (fun _ => 0) in floats_only n fl c /\
        norm2 n (fun i => delta i (nth k rows O) - mv n (maskm fl H) c i) <= rtol) /\
  ((exists i, In i rows /\ fl i = false) -> cov_rows_hessfree n (mv n (maskm fl H)) rtol g rows = Raise ValueError).
Proof.
  intros S PD RT GV RN R1.
  assert (SM : sym n (maskm fl H)) by (intros i j Hi Hj; unfold maskm; destruct (fl i), (fl j); auto).
  assert (ZM : forall i j, (i < n)%nat -> (j < n)%nat -> fl i = false -> maskm fl H i j = 0) by (intros i j _ _ F; unfold maskm; rewrite F; auto).
  assert (PM : forall d, floats_only n fl d -> nonzero n d -> 0 < quad n (maskm fl H) d) by (intros d V N; rewrite maskm_quad by auto; auto).
  destruct (cg_spec n (maskm fl H) fl g rtol SM ZM PM GV RT) as (v & EV & VV & VN).
  assert (ROWOK : forall i, (i < n)%nat -> fl i = true -> exists c, cg n (mv n (maskm fl H)) rtol (fun k => delta k i) = Some c /\
            floats_only n fl c /\ norm2 n (fun k => delta k i - mv n (maskm fl H) c k) <= rtol).
  { intros i Hi F. destruct (cg_spec n (maskm fl H) fl (fun k => delta k i) rtol SM ZM PM) as (c & E & V & N); auto.
    - intros k Hk Fk. unfold delta. destruct (Nat.eqb_spec k i) as [->|]; [congruence|auto].
    - exists c. split; auto. split; auto. rewrite <- norm_norm2. refine (Rle_trans _ _ _ N _).
      assert (N1 : norm n (fun k => delta k i) = 1); [|rewrite N1; lra].
      unfold norm. replace (vdot n (fun k => delta k i) (fun k => delta k i)) with 1; [apply sqrt_1|].
      unfold vdot. rewrite sm_delta' by auto. unfold delta. rewrite Nat.eqb_refl. auto. }
  unfold cov_rows_hessfree. rewrite EV. split.
  - intros FR. assert (X : exists cs, cg_rows n (mv n (maskm fl H)) rtol rows = Ok cs /\ List.length cs = List.length rows /\
        forall k, (k < List.length rows)%nat -> let c := nth k cs (fun _ => 0) in floats_only n fl c /\
        norm2 n (fun i => delta i (nth k rows O) - mv n (maskm fl H) c i) <= rtol).
    { clear -RN FR ROWOK. induction rows as [|i rows IH]; [exists []; cbn; split; auto; split; auto; intros; lia|].
      destruct IH as (cs & E & L & A); [intros; apply RN; right; auto|intros; apply FR; right; auto|].
      destruct (ROWOK i) as (c & Ec & V & N); [apply RN; left; auto|apply FR; left; auto|].
      exists (c :: cs). cbn [cg_rows]. rewrite Ec, E. split; [reflexivity|]. split; [cbn; auto|]. intros [|k] Hk; cbn [nth]; [split; auto|]. apply A. cbn in Hk. lia. }
    destruct X as (cs & E & L & A). eexists _, cs. rewrite E. split; [reflexivity|]. split; auto. split; auto.
    exists v. rewrite <- !norm_norm2. auto.
  - intros (i & Hi & F). assert (X : cg_rows n (mv n (maskm fl H)) rtol rows = Raise ValueError); [|rewrite X; reflexivity].
    clear -RN ROWOK Hi F R1. induction rows as [|a rows IH]; [destruct Hi|]. cbn [cg_rows]. destruct (fl a) eqn:Fa.
    + destruct (ROWOK a) as (c & Ec & _); [apply RN; left; auto|auto|]. rewrite Ec. rewrite IH; auto; [intros; apply RN; right; auto|].
      destruct Hi as [<-|Hi]; [congruence|auto].
    + rewrite (cg_row_frozen n fl H rtol a); auto. apply RN. left. auto.
Qed.
