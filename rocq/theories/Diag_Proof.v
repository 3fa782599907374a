(** Proofs about the diagnostics of the fit. *)
From Coq Require Import List Reals ZArith Bool Lia Lra Permutation.
From Verif Require Import PyList RBase Mat_Model Mat_Proof Fit_Model Linear_Model Linear_Proof Diag_Model Diag_Spec.
Import ListNotations.
Local Open Scope R_scope.

Lemma pick_some rows : forall p rest, pick rows = Some (p, rest) -> Permutation rows (p :: rest) /\ fst p O <> 0.
Proof.
  induction rows as [|r t IH]; intros p rest; cbn [pick]; [discriminate|].
  destruct (pick t) as [[q u]|] eqn:E.
  - destruct (IH _ _ eq_refl) as [P N]. destruct (Rleb_spec (Rabs (fst q O)) (Rabs (fst r O))) as [L|L]; intros H; inversion H; subst.
    + split; auto. intros Z. rewrite Z, Rabs_R0 in L. assert (X := Rabs_pos_lt _ N). lra.
    + split; auto. rewrite P. apply perm_swap.
  - destruct (Reqb_spec (fst r O) 0) as [L|L]; [discriminate|]. intros H; inversion H; subst. split; auto.
Qed.
Lemma pick_none rows : pick rows = None -> forall r, In r rows -> fst r O = 0.
Proof.
  induction rows as [|r t IH]; cbn [pick]; intros H q Q; [destruct Q|].
  destruct (pick t) as [[p u]|] eqn:E; [destruct (Rleb _ _); discriminate|].
  destruct (Reqb_spec (fst r O) 0) as [L|L]; [|discriminate]. destruct Q as [<-|Q]; auto.
Qed.

Definition ap (m : nat) (r : row) (x : vec) : R := sm m (fun j => fst r j * x j).
Lemma ap_S m r x : ap (S m) r x = fst r O * x O + sm m (fun j => fst r (S j) * x (S j)).
Proof. reflexivity. Qed.
Lemma ap_elim m p r x : ap m (eliminate p r) x = sm m (fun j => fst r (S j) * x j) - fst r O / fst p O * sm m (fun j => fst p (S j) * x j).
Proof. unfold ap, eliminate; cbn [fst]. rewrite <- sm_scal, <- sm_minus. apply sm_ext. intros; ring. Qed.

Lemma gauss_some m : forall rows x, List.length rows = m -> gauss m rows = Some x -> forall r, In r rows -> ap m r x = snd r.
Proof.
  induction m as [|m IH]; intros rows x L G r I.
  - destruct rows; [destruct I|discriminate].
  - cbn [gauss] in G. destruct (pick rows) as [[p rest]|] eqn:P; [|discriminate].
    destruct (gauss m (map (eliminate p) rest)) as [y|] eqn:E; [|discriminate]. inversion G; subst x; clear G.
    destruct (pick_some _ _ _ P) as [PM N]. rewrite PM in I.
    assert (LR : List.length (map (eliminate p) rest) = m) by (rewrite map_length; apply Permutation_length in PM; cbn in PM; lia).
    rewrite ap_S. cbn [fst]. destruct I as [<-|I].
    + field. auto.
    + assert (X := IH _ _ LR E (eliminate p r) (in_map _ _ _ I)). rewrite ap_elim in X. cbn [eliminate snd] in X.
      assert (Y : sm m (fun j => fst r (S j) * y j) = fst r O / fst p O * sm m (fun j => fst p (S j) * y j) + (snd r - fst r O / fst p O * snd p)) by lra.
      rewrite Y. field. auto.
Qed.
Lemma gauss_inj m : forall rows x, gauss m rows = Some x -> forall z, (forall r, In r rows -> ap m r z = 0) -> forall i, (i < m)%nat -> z i = 0.
Proof.
  induction m as [|m IH]; intros rows x G z Z i Hi; [lia|].
  cbn [gauss] in G. destruct (pick rows) as [[p rest]|] eqn:P; [|discriminate].
  destruct (gauss m (map (eliminate p) rest)) as [y|] eqn:E; [|discriminate]. clear G.
  destruct (pick_some _ _ _ P) as [PM N].
  assert (ZP : ap (S m) p z = 0) by (apply Z; rewrite PM; left; auto).
  assert (T : forall i, (i < m)%nat -> z (S i) = 0).
  { apply (IH _ _ E (fun i => z (S i))). intros r I. apply in_map_iff in I. destruct I as (q & <- & I).
    rewrite ap_elim. assert (ZQ : ap (S m) q z = 0) by (apply Z; rewrite PM; right; auto).
    rewrite ap_S in ZP, ZQ.
    assert (A : sm m (fun j => fst q (S j) * z (S j)) = - (fst q O * z O)) by lra.
    assert (B : sm m (fun j => fst p (S j) * z (S j)) = - (fst p O * z O)) by lra.
    rewrite A, B. field. auto. }
  destruct i as [|i]; [|apply T; lia].
  rewrite ap_S, sm_0 in ZP by (intros; rewrite T by auto; ring).
  rewrite Rplus_0_r in ZP. apply Rmult_integral in ZP. destruct ZP; [contradiction|auto].
Qed.
Lemma gauss_none m : forall rows, gauss m rows = None -> exists z, nonzero m z /\ forall r, In r rows -> ap m r z = 0.
Proof.
  induction m as [|m IH]; intros rows G; [discriminate|].
  cbn [gauss] in G. destruct (pick rows) as [[p rest]|] eqn:P.
  - destruct (gauss m (map (eliminate p) rest)) as [y|] eqn:E; [discriminate|]. clear G.
    destruct (IH _ E) as (z & (i & Hi & Zi) & Z). destruct (pick_some _ _ _ P) as [PM N].
    exists (fun i => match i with O => - sm m (fun j => fst p (S j) * z j) / fst p O | S i' => z i' end). split.
    + exists (S i). split; [lia|auto].
    + intros r I. rewrite PM in I. rewrite ap_S. destruct I as [<-|I].
      * field. auto.
      * assert (X := Z (eliminate p r) (in_map _ _ _ I)). rewrite ap_elim in X.
        assert (Y : sm m (fun j => fst r (S j) * z j) = fst r O / fst p O * sm m (fun j => fst p (S j) * z j)) by lra.
        rewrite Y. field. auto.
  - exists (delta O). split.
    + exists O. split; [lia|]. unfold delta; cbn. lra.
    + intros r I. rewrite ap_S, (pick_none _ P r I), Rmult_0_l, Rplus_0_l. apply sm_0. intros i _. unfold delta; cbn. ring.
Qed.
Lemma in_rows n A b r : In r (map (fun i => (A i, b i)) (seq 0 n)) <-> exists i, (i < n)%nat /\ r = ((A i, b i) : row).
Proof.
  rewrite in_map_iff. split.
  - intros (i & E & I). exists i. apply in_seq in I. split; [lia|auto].
  - intros (i & Hi & E). exists i. split; auto. apply in_seq. lia.
Qed.
Lemma solve_some n A b x : solve n A b = Some x -> solves n A b x /\ ~ singular n A.
Proof.
  unfold solve. intros G. split.
  - intros i Hi. assert (X := gauss_some n _ x ltac:(rewrite map_length, seq_length; auto) G (A i, b i)).
    apply X. apply in_rows. eauto.
  - intros (z & (i & Hi & Zi) & Z). apply Zi. apply (gauss_inj n _ x G z); auto.
    intros r I. apply in_rows in I. destruct I as (j & Hj & ->). apply Z; auto.
Qed.
Lemma solve_none n A b : solve n A b = None -> singular n A.
Proof.
  unfold solve. intros G. destruct (gauss_none _ _ G) as (z & NZ & Z). exists z. split; auto.
  intros i Hi. apply (Z (A i, b i)). apply in_rows. eauto.
Qed.
Lemma solve_spec n A b : (~ singular n A -> exists x, solve n A b = Some x /\ solves n A b x) /\ (singular n A -> solve n A b = None).
Proof.
  destruct (solve n A b) as [x|] eqn:E.
  - destruct (solve_some _ _ _ _ E) as [S N]. split; [eauto|]. intros; contradiction.
  - assert (S := solve_none _ _ _ E). split; [intros; contradiction|auto].
Qed.

Lemma dead_singular n A i : dead n A i -> singular n A.
Proof.
  intros [Hi D]. exists (delta i). split.
  - exists i. split; auto. unfold delta. rewrite Nat.eqb_refl. lra.
  - intros k Hk. unfold mv. apply sm_0. intros j Hj. unfold delta. destruct (Nat.eqb i j) eqn:E; [|ring].
    apply Nat.eqb_eq in E. subst j. rewrite (proj2 (D k Hk)). ring.
Qed.
Lemma dead_not_posdef n A i : dead n A i -> ~ posdef n A.
Proof.
  intros D P. destruct (dead_singular _ _ _ D) as (z & NZ & Z). destruct NZ as (j & Hj & Zj).
  apply Zj. apply (posdef_inj n A z P Z). auto.
Qed.
Lemma posdef_regular n A : posdef n A -> ~ singular n A.
Proof. intros P (z & (i & Hi & Zi) & Z). apply Zi. apply (posdef_inj n A z P Z). auto. Qed.

(** *** the estimated distance to the minimum *)
Lemma quad_sym_swap n A x y : sym n A -> sm n (fun i => x i * mv n A y i) = sm n (fun i => y i * mv n A x i).
Proof.
  intros S. unfold mv.
  rewrite (sm_ext n _ (fun i => sm n (fun j => x i * (A i j * y j)))) by (intros; rewrite <- sm_scal; auto).
  rewrite sm_swap. apply sm_ext. intros i Hi. rewrite <- sm_scal. apply sm_ext. intros j Hj. rewrite (S j i) by auto. ring.
Qed.
Lemma approx_at n g A x d : sym n A -> solves n A g x ->
  approximation n g A d = approximation n g A (fun i => - x i) + 1 / 2 * quad n A (fun i => d i + x i).
Proof.
  intros S X. unfold approximation, quad.
  rewrite (sm_ext n (fun i => (d i + x i) * mv n A (fun i => d i + x i) i)
             (fun i => (d i * mv n A d i + x i * mv n A d i) + (d i * g i + x i * g i))).
  2:{ intros i Hi. rewrite mv_plus, (X i Hi). ring. }
  rewrite !sm_plus.
  rewrite (sm_ext n (fun i => - x i * mv n A (fun i => - x i) i) (fun i => x i * g i)).
  2:{ intros i Hi. assert (M : mv n A (fun i => - x i) i = - g i).
      { rewrite <- (X i Hi). replace (- mv n A x i) with ((-1) * mv n A x i) by ring. unfold mv. rewrite <- sm_scal. apply sm_ext. intros; ring. }
      rewrite M. ring. }
  rewrite (quad_sym_swap n A x d S).
  rewrite (sm_ext n (fun i => d i * mv n A x i) (fun i => d i * g i)) by (intros i Hi; rewrite (X i Hi); auto).
  rewrite (sm_ext n (fun i => g i * d i) (fun i => d i * g i)) by (intros; ring).
  rewrite (sm_ext n (fun i => g i * - x i) (fun i => (-1) * (x i * g i))) by (intros; ring).
  rewrite sm_scal. lra.
Qed.
Lemma quad_nonneg n A d : posdef n A -> 0 <= quad n A d.
Proof. intros P. destruct (nonzero_dec n d) as [N|Z]; [left; auto|rewrite quad_zero by auto; lra]. Qed.
Lemma edm_distance n g A x : sym n A -> posdef n A -> solves n A g x -> distance_to_minimum n g A (1 / 2 * vdot n g x).
Proof.
  intros S P X. exists (fun i => - x i). split.
  - intros d. rewrite (approx_at n g A x d S X). assert (Q := quad_nonneg n A (fun i => d i + x i) P). lra.
  - rewrite (approx_at n g A x (fun _ => 0) S X).
    rewrite (quad_ext n A (fun i => 0 + x i) x) by (intros; ring).
    unfold quad. rewrite (sm_ext n (fun i => x i * mv n A x i) (fun i => g i * x i)) by (intros i Hi; rewrite (X i Hi); ring).
    unfold vdot. ring.
Qed.
Lemma distance_unique n g A e e' : distance_to_minimum n g A e -> distance_to_minimum n g A e' -> e = e'.
Proof. intros (d & M & ->) (d' & M' & ->). assert (X := M d'). assert (Y := M' d). lra. Qed.
Theorem edm_cpu n g A : sym n A -> posdef n A -> exists e, edmval false n g A = Ok (Number e) /\ distance_to_minimum n g A e.
Proof.
  intros S P. cbn [edmval]. unfold scipy_edmval. destruct (proj1 (solve_spec n A g) (posdef_regular _ _ P)) as (x & E & X).
  rewrite E. eexists. split; [reflexivity|]. apply edm_distance; auto.
Qed.
Theorem edm_same gpu n g A : sym n A -> posdef n A ->
  exists e c, lib_edmval_cov gpu n g A = Ok (e, c) /\ edmval false n g A = Ok (Number e).
Proof.
  intros S P. destruct (edm_cpu n g A S P) as (e & E & D).
  destruct (proj1 (lib_spec gpu n g A S) P) as (e' & c & L & O). exists e', c. split; auto. rewrite E. do 2 f_equal.
  apply (distance_unique n g A); auto. destruct O as (-> & I & _).
  assert (X : solves n A g (mv n c g)).
  { intros i Hi. rewrite mv_assoc. transitivity (sm n (fun j => delta i j * g j)); [|apply sm_delta; auto].
    apply sm_ext. intros j Hj. rewrite I by auto. auto. }
  apply (edm_distance n g A (mv n c g) S P X).
Qed.

(** *** the fit *)
Lemma hess_off gpu n v : scipy_hess false gpu n v = Ok ([], v_hess v).
Proof. reflexivity. Qed.
Lemma hess_regular gpu n v : ~ singular n (v_hess v) -> exists l, scipy_hess true gpu n v = Ok (l, v_hess v).
Proof.
  intros N. unfold scipy_hess, edmval. destruct (proj1 (solve_spec n (v_hess v) (v_grad v)) N) as (x & E & _).
  destruct gpu; [unfold tf_edmval|unfold scipy_edmval]; rewrite E; cbn [rbind]; eauto.
Qed.
Lemma hess_singular gpu n v : singular n (v_hess v) -> scipy_hess true gpu n v = Raise ValueError.
Proof.
  intros S. unfold scipy_hess, edmval. assert (E := proj2 (solve_spec n (v_hess v) (v_grad v)) S).
  destruct gpu; [unfold tf_edmval|unfold scipy_edmval]; rewrite E; reflexivity.
Qed.
Lemma run_same gpu n f k : forall p, regular_along n f p -> forall x c,
  run_min (fun _ => false) Rleb (fun y => Some (f y)) k (strategy true gpu n p) x c =
  run_min (fun _ => false) Rleb (fun y => Some (f y)) k (strategy false gpu n p) x c.
Proof.
  intros p. induction p as [r| | |y next IH|y next IH|l y p IH]; cbn [regular_along]; intros N x c; cbn [strategy run_min]; [reflexivity..| | |].
  - apply IH. auto.
  - destruct (hess_regular gpu n (f y) (proj1 N)) as (lg & E). rewrite E. cbn [snd]. apply IH. apply N.
  - destruct (cb_call _ _ _ _ _ _); [apply IH; auto|reflexivity].
Qed.
Lemma run_stops gpu n f k : (forall x, singular n (v_hess (f x))) -> forall p, hessian_first f p -> forall x c, exists y,
  run_min (fun _ => false) Rleb (fun y => Some (f y)) k (strategy true gpu n p) x c = (y, c, Failed).
Proof.
  intros S p. induction p as [r| | |y next IH|y next IH|l y p IH]; cbn [hessian_first]; intros H x c; try contradiction; cbn [strategy run_min].
  - apply IH. auto.
  - rewrite (hess_singular gpu n (f y) (S y)). cbn [run_min]. eauto.
Qed.

Theorem fit_same gpu n f k p x : regular_along n f p -> fit_with true gpu n f k p x = fit_with false gpu n f k p x.
Proof. intros N. unfold fit_with, fit. rewrite run_same by auto. reflexivity. Qed.
Theorem fit_stops gpu n f k p x : (forall y, singular n (v_hess (f y))) -> hessian_first f p ->
  fit_with true gpu n f k p x = (x, Some (cb_init x)).
Proof.
  intros S H. unfold fit_with, fit. destruct (run_stops gpu n f k S p H x (cb_init x)) as (y & E). rewrite E. reflexivity.
Qed.

(** *** refits of frozen parameters *)
Theorem refits_off gpu n f refit x idx : exists r, refits false gpu n f refit x idx = Ok r /\ List.length r = (2 * List.length idx)%nat.
Proof.
  induction idx as [|i t (r & E & L)]; cbn [refits refit_one rbind]; [exists []; auto|].
  rewrite E. cbn [rbind]. eexists. split; [reflexivity|]. cbn [List.length]. rewrite L. lia.
Qed.
Theorem refits_on gpu n f refit x i t : sym n (v_hess (f (refit i true x))) -> dead n (v_hess (f (refit i true x))) i ->
  refits true gpu n f refit x (i :: t) = Raise ValueError.
Proof.
  intros S D. cbn [refits]. unfold refit_one at 1. rewrite (proj2 (lib_spec gpu n _ _ S) (dead_not_posdef _ _ _ D)). reflexivity.
Qed.
