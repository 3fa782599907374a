(** Proofs about [Mat_Model]. *)
From Coq Require Import Reals Arith Lra Lia.
From Verif Require Import Mat_Model.
Open Scope R_scope.

Lemma sm_ext n : forall f g, (forall i, (i < n)%nat -> f i = g i) -> sm n f = sm n g.
Proof. induction n as [|n IH]; intros f g H; cbn; auto. rewrite (H O) by lia. f_equal. apply IH. intros i Hi. apply H. lia. Qed.
Lemma sm_0 n : forall f, (forall i, (i < n)%nat -> f i = 0) -> sm n f = 0.
Proof. induction n as [|n IH]; intros f H; cbn; auto. rewrite (H O) by lia. rewrite IH; [lra|]. intros i Hi. apply H. lia. Qed.
Lemma sm_plus n : forall f g, sm n (fun i => f i + g i) = sm n f + sm n g.
Proof. induction n as [|n IH]; intros f g; cbn; [lra|]. rewrite IH. lra. Qed.
Lemma sm_minus n : forall f g, sm n (fun i => f i - g i) = sm n f - sm n g.
Proof. induction n as [|n IH]; intros f g; cbn; [lra|]. rewrite IH. lra. Qed.
Lemma sm_scal n c : forall f, sm n (fun i => c * f i) = c * sm n f.
Proof. induction n as [|n IH]; intros f; cbn; [lra|]. rewrite IH. lra. Qed.
Lemma sm_scalr n c : forall f, sm n (fun i => f i * c) = sm n f * c.
Proof. induction n as [|n IH]; intros f; cbn; [lra|]. rewrite IH. lra. Qed.
Lemma sm_swap n m : forall f, sm n (fun i => sm m (fun j => f i j)) = sm m (fun j => sm n (fun i => f i j)).
Proof.
  induction n as [|n IH]; intros f; cbn; [symmetry; apply sm_0; auto|].
  rewrite IH. rewrite <- sm_plus. apply sm_ext. auto.
Qed.
Lemma sm_nonneg n : forall f, (forall i, (i < n)%nat -> 0 <= f i) -> 0 <= sm n f.
Proof. induction n as [|n IH]; intros f H; cbn; [lra|]. assert (0 <= f O) by (apply H; lia). assert (0 <= sm n (fun i => f (S i))) by (apply IH; intros; apply H; lia). lra. Qed.
Lemma sm_delta n k : forall f, (k < n)%nat -> sm n (fun i => delta k i * f i) = f k.
Proof.
  revert k. induction n as [|n IH]; intros k f H; [lia|]. cbn [sm]. destruct k as [|k].
  - rewrite sm_0; [unfold delta; cbn; lra|]. intros i _. unfold delta. cbn. lra.
  - unfold delta at 1. cbn [Nat.eqb]. rewrite Rmult_0_l, Rplus_0_l. apply (IH k (fun i => f (S i))). lia.
Qed.
Lemma delta_sym i j : delta i j = delta j i.
Proof. unfold delta. rewrite Nat.eqb_sym. reflexivity. Qed.
Lemma sm_delta' n k : forall f, (k < n)%nat -> sm n (fun i => f i * delta i k) = f k.
Proof. intros f H. rewrite <- (sm_delta n k f H). apply sm_ext. intros i _. rewrite delta_sym. lra. Qed.

Definition sym (n : nat) (A : nat -> nat -> R) : Prop := forall i j, (i < n)%nat -> (j < n)%nat -> A i j = A j i.
Definition quad (n : nat) (A : nat -> nat -> R) (x : nat -> R) : R := sm n (fun i => x i * mv n A x i).
Definition nonzero (n : nat) (x : nat -> R) : Prop := exists i, (i < n)%nat /\ x i <> 0.
Definition posdef (n : nat) (A : nat -> nat -> R) : Prop := forall x, nonzero n x -> 0 < quad n A x.
Definition lower (n : nat) (L : nat -> nat -> R) : Prop := forall i j, (i < n)%nat -> (j < n)%nat -> (i < j)%nat -> L i j = 0.
Definition posdiag (n : nat) (L : nat -> nat -> R) : Prop := forall i, (i < n)%nat -> 0 < L i i.

Lemma mv_ext n A B x y : (forall i j, (i < n)%nat -> (j < n)%nat -> A i j = B i j) -> (forall j, (j < n)%nat -> x j = y j) ->
  forall i, (i < n)%nat -> mv n A x i = mv n B y i.
Proof. intros H1 H2 i Hi. apply sm_ext. intros j Hj. rewrite H1, H2 by auto. reflexivity. Qed.

Definition schur (A : nat -> nat -> R) (i j : nat) : R := A (S i) (S j) - (A (S i) O / sqrt (A O O)) * (A (S j) O / sqrt (A O O)).
Lemma schur_eq A i j : 0 < A O O -> schur A i j = A (S i) (S j) - A (S i) O * A (S j) O / A O O.
Proof.
  intros D. unfold schur. assert (P := sqrt_lt_R0 _ D). assert (Q : sqrt (A O O) * sqrt (A O O) = A O O) by (apply sqrt_sqrt; lra).
  rewrite <- Q at 3. field. lra.
Qed.
Lemma schur_sym n A : sym (S n) A -> sym n (schur A).
Proof. intros H i j Hi Hj. unfold schur. rewrite (H (S i) (S j)) by lia. lra. Qed.
(** completing the square in the first coordinate *)
Lemma quad_schur n A x : sym (S n) A -> 0 < A O O ->
  let s := sm n (fun i => A (S i) O * x (S i)) in
  quad (S n) A x = A O O * ((x O + s / A O O) * (x O + s / A O O)) + quad n (schur A) (fun i => x (S i)).
Proof.
  intros H D s. unfold quad. cbn [sm]. unfold mv at 1. cbn [sm].
  assert (E0 : sm n (fun i => A O (S i) * x (S i)) = s). { apply sm_ext. intros i Hi. rewrite (H O (S i)) by lia. reflexivity. }
  rewrite E0.
  assert (E1 : sm n (fun i => x (S i) * mv (S n) A x (S i)) = s * x O + sm n (fun i => x (S i) * sm n (fun j => A (S i) (S j) * x (S j)))).
  { unfold s. rewrite <- sm_scalr, <- sm_plus. apply sm_ext. intros i _. unfold mv. cbn [sm]. ring. }
  rewrite E1.
  assert (E2 : sm n (fun i => x (S i) * mv n (schur A) (fun i => x (S i)) i) = sm n (fun i => x (S i) * sm n (fun j => A (S i) (S j) * x (S j))) - s * s / A O O).
  { assert (E3 : s * s / A O O = sm n (fun i => (A (S i) O * x (S i)) * (s / A O O))). { rewrite sm_scalr. fold s. field. lra. }
    rewrite E3, <- sm_minus. apply sm_ext. intros i Hi. unfold mv.
    assert (E4 : sm n (fun j => schur A i j * x (S j)) = sm n (fun j => A (S i) (S j) * x (S j)) - A (S i) O * (s / A O O)).
    { assert (E5 : A (S i) O * (s / A O O) = sm n (fun j => (A (S i) O / A O O) * (A (S j) O * x (S j)))). { rewrite sm_scal. fold s. field. lra. }
      rewrite E5, <- sm_minus. apply sm_ext. intros j Hj. rewrite schur_eq by auto. field. lra. }
    rewrite E4. ring. }
  rewrite E2. field. lra.
Qed.

Theorem chol_spec n : forall A L, sym n A -> chol n A = Some L ->
  (forall i j, (i < n)%nat -> (j < n)%nat -> sm n (fun k => L i k * L j k) = A i j) /\ lower n L /\ posdiag n L.
Proof.
  induction n as [|n IH]; intros A L H E.
  { repeat split; intros i; intros; lia. }
  cbn [chol] in E. destruct (Rlt_dec 0 (A O O)) as [D|]; [|discriminate].
  change (fun i j => A (S i) (S j) - A (S i) O / sqrt (A O O) * (A (S j) O / sqrt (A O O))) with (schur A) in E.
  destruct (chol n (schur A)) as [L'|] eqn:E'; [|discriminate]. injection E as <-.
  destruct (IH _ _ (schur_sym n A H) E') as (M & LO & PD).
  assert (P := sqrt_lt_R0 _ D). assert (Q : sqrt (A O O) * sqrt (A O O) = A O O) by (apply sqrt_sqrt; lra).
  split; [|split].
  - intros i j Hi Hj. cbn [sm]. destruct i as [|i].
    + rewrite sm_0 by (intros; lra). rewrite (H O j) by lia. rewrite Rplus_0_r.
      replace (A O O / sqrt (A O O)) with (sqrt (A O O)) by (rewrite <- Q at 2; field; lra). field. lra.
    + destruct j as [|j].
      * rewrite sm_0 by (intros; lra). rewrite Rplus_0_r.
        replace (A O O / sqrt (A O O)) with (sqrt (A O O)) by (rewrite <- Q at 2; field; lra). field. lra.
      * rewrite M by lia. unfold schur. ring.
  - intros i j Hi Hj Hij. destruct j as [|j]; [lia|]. destruct i as [|i]; auto. apply LO; lia.
  - intros i Hi. destruct i as [|i].
    + replace (A O O / sqrt (A O O)) with (sqrt (A O O)) by (rewrite <- Q at 2; field; lra). auto.
    + apply PD. lia.
Qed.
Lemma nonzero_dec n : forall x, nonzero n x \/ forall i, (i < n)%nat -> x i = 0.
Proof.
  induction n as [|n IH]; intros x; [right; intros; lia|].
  destruct (Req_dec (x O) 0) as [Z|Z]; [|left; exists O; split; [lia|auto]].
  destruct (IH (fun i => x (S i))) as [(i & Hi & Xi)|X]; [left; exists (S i); split; [lia|auto]|].
  right. intros [|i] Hi; auto. apply X. lia.
Qed.
Lemma quad_zero n A x : (forall i, (i < n)%nat -> x i = 0) -> quad n A x = 0.
Proof. intros H. apply sm_0. intros i Hi. rewrite H by auto. lra. Qed.
Theorem chol_posdef n : forall A, sym n A -> (posdef n A <-> exists L, chol n A = Some L).
Proof.
  induction n as [|n IH]; intros A H.
  { split; [eexists; reflexivity|]. intros _ x (i & Hi & _). lia. }
  cbn [chol]. change (fun i j => A (S i) (S j) - A (S i) O / sqrt (A O O) * (A (S j) O / sqrt (A O O))) with (schur A). split.
  - intros PD. assert (D : 0 < A O O).
    { specialize (PD (fun i => delta O i)). assert (Q : quad (S n) A (fun i => delta O i) = A O O).
      { unfold quad. rewrite (sm_delta (S n) O) by lia. unfold mv. rewrite <- (sm_delta (S n) O (fun j => A O j)) by lia. apply sm_ext. intros; ring. }
      rewrite Q in PD. apply PD. exists O. split; [lia|]. unfold delta. cbn. lra. }
    destruct (Rlt_dec 0 (A O O)); [|contradiction].
    assert (PB : posdef n (schur A)).
    { intros x (i & Hi & Xi).
      set (s := sm n (fun i => A (S i) O * x i)).
      assert (Q := PD (fun i => match i with O => - s / A O O | S i => x i end)).
      rewrite quad_schur in Q by auto. cbv beta iota in Q. fold s in Q.
      replace (- s / A O O + s / A O O) with 0 in Q by (field; lra).
      assert (Z : 0 < A O O * (0 * 0) + quad n (schur A) (fun i => x i)). { apply Q. exists (S i). split; [lia|auto]. }
      change (fun i => x i) with x in Z. lra. }
    apply (IH _ (schur_sym n A H)) in PB. destruct PB as [L ->]. eauto.
  - intros [L E]. destruct (Rlt_dec 0 (A O O)) as [D|]; [|discriminate].
    destruct (chol n (schur A)) as [L'|] eqn:E'; [|discriminate].
    assert (PB : posdef n (schur A)) by (apply (IH _ (schur_sym n A H)); eauto).
    intros x X. rewrite quad_schur by auto. cbv zeta. set (s := sm n (fun i => A (S i) O * x (S i))).
    assert (SQ : 0 <= A O O * ((x O + s / A O O) * (x O + s / A O O))) by (apply Rmult_le_pos; [lra|apply Rle_0_sqr]).
    destruct (nonzero_dec n (fun i => x (S i))) as [N|Z].
    + specialize (PB _ N). lra.
    + assert (S0 : s = 0). { unfold s. apply sm_0. intros i Hi. rewrite Z by auto. lra. }
      rewrite quad_zero by auto. rewrite S0. replace (x O + 0 / A O O) with (x O) by (field; lra).
      destruct X as ([|i] & Hi & Xi); [|rewrite Z in Xi by lia; lra].
      assert (0 < x O * x O) by (destruct (Rtotal_order (x O) 0) as [T|[T|T]]; [nra|contradiction|nra]).
      assert (0 < A O O * (x O * x O)) by (apply Rmult_lt_0_compat; auto). lra.
Qed.

Definition nzdiag (n : nat) (L : nat -> nat -> R) : Prop := forall i, (i < n)%nat -> L i i <> 0.
Lemma posdiag_nz n L : posdiag n L -> nzdiag n L.
Proof. intros H i Hi. specialize (H i Hi). lra. Qed.
Lemma lower_tl n L : lower (S n) L -> lower n (fun i j => L (S i) (S j)).
Proof. intros H i j Hi Hj Hij. apply H; lia. Qed.
Lemma nzdiag_tl n L : nzdiag (S n) L -> nzdiag n (fun i j => L (S i) (S j)).
Proof. intros H i Hi. apply H. lia. Qed.
Lemma fsolve_spec n : forall L b, lower n L -> nzdiag n L -> forall i, (i < n)%nat -> mv n L (fsolve n L b) i = b i.
Proof.
  induction n as [|n IH]; intros L b LO NZ i Hi; [lia|]. cbn [fsolve]. cbv zeta. unfold mv. cbn [sm].
  assert (Z : L O O <> 0) by (apply NZ; lia). destruct i as [|i].
  - rewrite sm_0; [field; auto|]. intros k Hk. rewrite LO by lia. lra.
  - assert (E := IH (fun i j => L (S i) (S j)) (fun i => b (S i) - L (S i) O * (b O / L O O)) (lower_tl n L LO) (nzdiag_tl n L NZ) i ltac:(lia)).
    unfold mv in E. rewrite E. lra.
Qed.
Lemma bsolve_spec n : forall L y, lower n L -> nzdiag n L -> forall i, (i < n)%nat -> sm n (fun k => L k i * bsolve n L y k) = y i.
Proof.
  induction n as [|n IH]; intros L y LO NZ i Hi; [lia|]. cbn [bsolve]. cbv zeta. cbn [sm].
  assert (Z : L O O <> 0) by (apply NZ; lia). destruct i as [|i].
  - field. auto.
  - rewrite (LO O (S i)) by lia.
    rewrite (IH (fun i j => L (S i) (S j)) (fun i => y (S i)) (lower_tl n L LO) (nzdiag_tl n L NZ) i ltac:(lia)). lra.
Qed.
Lemma lower_inj n : forall L z, lower n L -> nzdiag n L -> (forall i, (i < n)%nat -> mv n L z i = 0) -> forall i, (i < n)%nat -> z i = 0.
Proof.
  induction n as [|n IH]; intros L z LO NZ H i Hi; [lia|].
  assert (Z : L O O <> 0) by (apply NZ; lia).
  assert (Z0 : z O = 0).
  { assert (E := H O ltac:(lia)). unfold mv in E. cbn [sm] in E. rewrite sm_0 in E; [|intros k Hk; rewrite LO by lia; lra].
    rewrite Rplus_0_r in E. apply Rmult_integral in E. tauto. }
  destruct i as [|i]; auto.
  apply (IH (fun i j => L (S i) (S j)) (fun i => z (S i)) (lower_tl n L LO) (nzdiag_tl n L NZ)); [|lia].
  intros j Hj. assert (E := H (S j) ltac:(lia)). unfold mv in E |- *. cbn [sm] in E. rewrite Z0 in E. lra.
Qed.

Section Factor.
  Variables (n : nat) (A L : nat -> nat -> R).
  Hypothesis (LLT : forall i j, (i < n)%nat -> (j < n)%nat -> sm n (fun k => L i k * L j k) = A i j).
  Hypothesis (LO : lower n L) (NZ : nzdiag n L).
  Lemma chol_solve_spec b i : (i < n)%nat -> mv n A (chol_solve n L b) i = b i.
  Proof.
    intros Hi. unfold chol_solve. set (y := fsolve n L b). set (x := bsolve n L y).
    transitivity (mv n L y i); [|apply fsolve_spec; auto].
    transitivity (sm n (fun k => L i k * sm n (fun j => L j k * x j))).
    - unfold mv. transitivity (sm n (fun j => sm n (fun k => L i k * L j k * x j))).
      + apply sm_ext. intros j Hj. rewrite sm_scalr, LLT by auto. reflexivity.
      + rewrite sm_swap. apply sm_ext. intros k Hk. rewrite <- sm_scal. apply sm_ext. intros; ring.
    - apply sm_ext. intros k Hk. unfold x. rewrite bsolve_spec by auto. reflexivity.
  Qed.
  Lemma trtri_right i j : (i < n)%nat -> (j < n)%nat -> mm n L (trtri n L) i j = delta i j.
  Proof. intros Hi Hj. exact (fsolve_spec n L (fun k => delta k j) LO NZ i Hi). Qed.
  Lemma trtri_left i j : (i < n)%nat -> (j < n)%nat -> mm n (trtri n L) L i j = delta i j.
  Proof.
    intros Hi Hj. apply Rminus_diag_uniq.
    apply (lower_inj n L (fun i => mm n (trtri n L) L i j - delta i j)); auto. clear i Hi. intros i Hi.
    transitivity (sm n (fun k => L i k * mm n (trtri n L) L k j) - sm n (fun k => L i k * delta k j)).
    { rewrite <- sm_minus. unfold mv. apply sm_ext. intros; ring. }
    rewrite sm_delta' by auto. apply Rminus_diag_eq.
    transitivity (sm n (fun l => sm n (fun k => L i k * trtri n L k l) * L l j)).
    - transitivity (sm n (fun k => sm n (fun l => L i k * trtri n L k l * L l j))).
      + apply sm_ext. intros k Hk. unfold mm. rewrite <- sm_scal. apply sm_ext. intros; ring.
      + rewrite sm_swap. apply sm_ext. intros l Hl. rewrite sm_scalr. reflexivity.
    - transitivity (sm n (fun l => delta i l * L l j)); [|exact (sm_delta n i (fun l => L l j) Hi)].
      apply sm_ext. intros l Hl. f_equal. apply trtri_right; auto.
  Qed.
  Lemma cho_inv_spec i m : (i < n)%nat -> (m < n)%nat -> mm n A (cho_inv n L) i m = delta i m.
  Proof.
    intros Hi Hm. unfold mm, cho_inv. rewrite <- (trtri_right i m Hi Hm). unfold mm at 1.
    set (T := trtri n L).
    (* A_ij C_jm = sum_k L_ik L_jk sum_l T_lj T_lm *)
    transitivity (sm n (fun j => sm n (fun k => L i k * (L j k * sm n (fun l => T l j * T l m))))).
    { apply sm_ext. intros j Hj. rewrite <- LLT by auto. rewrite <- sm_scalr. apply sm_ext. intros; ring. }
    rewrite sm_swap. apply sm_ext. intros k Hk. rewrite sm_scal. f_equal.
    transitivity (sm n (fun l => mm n T L l k * T l m)).
    - transitivity (sm n (fun j => sm n (fun l => T l j * L j k * T l m))).
      + apply sm_ext. intros j Hj. rewrite <- sm_scal. apply sm_ext. intros; ring.
      + rewrite sm_swap. apply sm_ext. intros l Hl. rewrite sm_scalr. reflexivity.
    - transitivity (sm n (fun l => delta k l * T l m)); [|exact (sm_delta n k (fun l => T l m) Hk)].
      apply sm_ext. intros l Hl. unfold T. rewrite trtri_left by auto. rewrite delta_sym. reflexivity.
  Qed.
  Lemma cho_inv_sym i j : cho_inv n L i j = cho_inv n L j i.
  Proof. apply sm_ext. intros; ring. Qed.
End Factor.

Lemma mv_minus n A x y i : mv n A (fun j => x j - y j) i = mv n A x i - mv n A y i.
Proof. unfold mv. rewrite <- sm_minus. apply sm_ext. intros; ring. Qed.
Lemma mv_plus n A x y i : mv n A (fun j => x j + y j) i = mv n A x i + mv n A y i.
Proof. unfold mv. rewrite <- sm_plus. apply sm_ext. intros; ring. Qed.
Lemma posdef_inj n A z : posdef n A -> (forall i, (i < n)%nat -> mv n A z i = 0) -> forall i, (i < n)%nat -> z i = 0.
Proof.
  intros PD H. destruct (nonzero_dec n z) as [N|Z]; auto. exfalso. specialize (PD z N).
  unfold quad in PD. rewrite sm_0 in PD; [lra|]. intros i Hi. rewrite H by auto. lra.
Qed.
Lemma posdef_inv_unique n A B C : posdef n A ->
  (forall i j, (i < n)%nat -> (j < n)%nat -> mm n A B i j = delta i j) ->
  (forall i j, (i < n)%nat -> (j < n)%nat -> mm n A C i j = delta i j) ->
  forall i j, (i < n)%nat -> (j < n)%nat -> B i j = C i j.
Proof.
  intros PD HB HC i j Hi Hj. apply Rminus_diag_uniq. apply (posdef_inj n A (fun i => B i j - C i j) PD); auto.
  intros k Hk. rewrite mv_minus. change (mv n A (fun j0 => B j0 j) k) with (mm n A B k j). change (mv n A (fun j0 => C j0 j) k) with (mm n A C k j).
  rewrite HB, HC by auto. lra.
Qed.
(** the inverse is positive definite too *)
Lemma mv_assoc n A B x i : mv n A (mv n B x) i = mv n (mm n A B) x i.
Proof.
  unfold mv, mm. transitivity (sm n (fun j => sm n (fun k => A i j * B j k * x k))).
  - apply sm_ext. intros j _. rewrite <- sm_scal. apply sm_ext. intros; ring.
  - rewrite sm_swap. apply sm_ext. intros k _. rewrite sm_scalr. reflexivity.
Qed.
Lemma inv_posdef n A C : posdef n A -> sym n A -> (forall i j, (i < n)%nat -> (j < n)%nat -> mm n A C i j = delta i j) -> sym n C -> posdef n C.
Proof.
  intros PD SA HC SC x (i & Hi & Xi).
  (* x.C x = (Cx).A(Cx) *)
  assert (AC : forall k, (k < n)%nat -> mv n A (mv n C x) k = x k).
  { intros k Hk. rewrite mv_assoc. transitivity (sm n (fun j => delta k j * x j)); [|apply sm_delta; auto].
    apply sm_ext. intros j Hj. rewrite HC by auto. reflexivity. }
  assert (Q : quad n C x = quad n A (mv n C x)).
  { unfold quad. apply sm_ext. intros k Hk. rewrite AC by auto. ring. }
  rewrite Q. apply PD. destruct (nonzero_dec n (mv n C x)) as [|Z]; auto. exfalso. apply Xi. rewrite <- AC by auto.
  apply sm_0. intros j Hj. rewrite Z by auto. lra.
Qed.
