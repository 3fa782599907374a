From Coq Require Import Reals List Bool Lra Lia Psatz Arith.
From Verif Require Import RBase BBStat_Model BBStat_Spec BBStat_Proof BBCov_Model BBCov_Spec.
Import ListNotations.
Open Scope R_scope.

Lemma rsum_S n f : rsum (S n) f = rsum n f + f n.
Proof. unfold rsum. rewrite seq_S, map_app, sumR_app. simpl. lra. Qed.
Lemma rsum_upto n f : rsum n f = sum_upto n f.
Proof. induction n; [reflexivity|]. rewrite rsum_S, IHn. reflexivity. Qed.

Lemma su_ext n f g : (forall i, (i < n)%nat -> f i = g i) -> sum_upto n f = sum_upto n g.
Proof. induction n; simpl; intros H; auto. rewrite IHn, H; auto. Qed.
Lemma su_plus n f g : sum_upto n (fun i => f i + g i) = sum_upto n f + sum_upto n g.
Proof. induction n; simpl; [lra|rewrite IHn; lra]. Qed.
Lemma su_minus n f g : sum_upto n (fun i => f i - g i) = sum_upto n f - sum_upto n g.
Proof. induction n; simpl; [lra|rewrite IHn; lra]. Qed.
Lemma su_scal n c f : sum_upto n (fun i => c * f i) = c * sum_upto n f.
Proof. induction n; simpl; [lra|rewrite IHn; lra]. Qed.
Lemma su_0 n : sum_upto n (fun _ => 0) = 0.
Proof. induction n; simpl; lra. Qed.
Lemma su_le n f g : (forall i, (i < n)%nat -> f i <= g i) -> sum_upto n f <= sum_upto n g.
Proof. induction n; simpl; intros H; [lra|]. pose proof (H n ltac:(lia)).
  assert (sum_upto n f <= sum_upto n g) by (apply IHn; intros; apply H; lia). lra. Qed.
Lemma su_swap n m f : sum_upto n (fun i => sum_upto m (fun j => f i j))
  = sum_upto m (fun j => sum_upto n (fun i => f i j)).
Proof.
  induction n; simpl. { rewrite su_0; auto. }
  rewrite IHn, <- su_plus. auto.
Qed.
Lemma su_delta n i c : (i < n)%nat -> sum_upto n (fun j => delta i j * c j) = c i.
Proof.
  induction n; intros Hi; [lia|]. simpl. unfold delta at 2. destruct (Nat.eqb_spec i n) as [->|Hne].
  - rewrite (su_ext n _ (fun _ => 0)). { rewrite su_0. lra. }
    intros j Hj. unfold delta. destruct (Nat.eqb_spec n j); [lia|lra].
  - rewrite IHn by lia. lra.
Qed.

Definition bil n W (u v : nat -> R) := sum_upto n (fun i => u i * sum_upto n (fun j => W i j * v j)).

Lemma quad_bil n W r : quadform n W r = bil n W r r.
Proof. unfold quadform, bil. apply su_ext. intros i _. rewrite <- su_scal. apply su_ext. intros; ring. Qed.

Lemma bil_sym n W u v : symmetric n W -> bil n W u v = bil n W v u.
Proof.
  intros Hs. unfold bil.
  rewrite (su_ext n _ (fun i => sum_upto n (fun j => u i * W i j * v j))).
  2:{ intros i _. rewrite <- su_scal. apply su_ext; intros; ring. }
  rewrite su_swap. apply su_ext. intros j Hj. rewrite <- su_scal. apply su_ext. intros i Hi.
  rewrite (Hs i j) by auto. ring.
Qed.
Lemma bil_ext n W u v u' v' : (forall i, (i < n)%nat -> u i = u' i) -> (forall i, (i < n)%nat -> v i = v' i) ->
  bil n W u v = bil n W u' v'.
Proof.
  intros Hu Hv. unfold bil. apply su_ext. intros i Hi. rewrite Hu by auto. f_equal.
  apply su_ext. intros j Hj. rewrite Hv; auto.
Qed.
Lemma bil_plus_r n W u v w : bil n W u (fun i => v i + w i) = bil n W u v + bil n W u w.
Proof.
  unfold bil. rewrite <- su_plus. apply su_ext. intros i _.
  rewrite <- Rmult_plus_distr_l. f_equal. rewrite <- su_plus. apply su_ext; intros; ring.
Qed.
Lemma bil_plus_l n W u v w : bil n W (fun i => u i + v i) w = bil n W u w + bil n W v w.
Proof. unfold bil. rewrite <- su_plus. apply su_ext. intros i _. ring. Qed.

(** expansion of the quadratic form around a point *)
Lemma quad_expand n W r d : symmetric n W ->
  quadform n W (fun i => r i + d i) = quadform n W r + 2 * bil n W d r + quadform n W d.
Proof.
  intros Hs. rewrite !quad_bil, bil_plus_r, !bil_plus_l. rewrite (bil_sym n W r d) by auto. ring.
Qed.

(** stationary point of the penalised chi-square; E affine with slope [a] *)
Lemma stationary_min n m W nobs (E : (nat -> nat -> R) -> nat -> R) (a k b0 bs : nat -> nat -> R) :
  symmetric n W -> psd n W ->
  (forall i p, (i < n)%nat -> (p < m)%nat -> 0 <= k i p) ->
  (forall b i, (i < n)%nat -> E b i - E bs i = sum_upto m (fun p => a i p * (b i p - bs i p))) ->
  (forall i p, (i < n)%nat -> (p < m)%nat ->
     a i p * sum_upto n (fun j => W i j * (E bs j - nobs j)) + k i p * (bs i p - b0 i p) = 0) ->
  minimises (fun _ => True) (cov_objective2 n m W nobs E k b0) bs.
Proof.
  intros Hs Hp Hk HE Hst. split; auto. intros b _. unfold cov_objective2, cov_chi2.
  set (r := fun i => nobs i - E bs i). set (d := fun i => - (E b i - E bs i)).
  assert (Hq: quadform n W (fun i => nobs i - E b i) = quadform n W (fun i => r i + d i)).
  { rewrite !quad_bil. apply bil_ext; intros; unfold r, d; ring. }
  rewrite Hq, quad_expand by auto. pose proof (Hp d) as Hd.
  assert (Hc: sum_upto n (fun i => sum_upto m (fun p => gauss_constraint (k i p) (b0 i p) (b i p)))
     - sum_upto n (fun i => sum_upto m (fun p => gauss_constraint (k i p) (b0 i p) (bs i p)))
     >= sum_upto n (fun i => sum_upto m (fun p => k i p * (bs i p - b0 i p) * (b i p - bs i p)))).
  { rewrite <- su_minus. apply Rle_ge. apply su_le. intros i Hi. rewrite <- su_minus. apply su_le. intros p Hpm.
    pose proof (gauss_tangent (k i p) (b0 i p) (b i p) (bs i p) (Hk i p Hi Hpm)). lra. }
  assert (Hb: bil n W d r + sum_upto n (fun i => sum_upto m (fun p => k i p * (bs i p - b0 i p) * (b i p - bs i p))) = 0).
  { unfold bil. rewrite <- su_plus. rewrite <- (su_0 n). apply su_ext. intros i Hi.
    unfold d. rewrite HE by auto.
    set (G := sum_upto n (fun j => W i j * (E bs j - nobs j))) in *.
    assert (HG: sum_upto n (fun j => W i j * r j) = - G).
    { unfold G. replace (- sum_upto n (fun j => W i j * (E bs j - nobs j)))
        with ((-1) * sum_upto n (fun j => W i j * (E bs j - nobs j))) by ring.
      rewrite <- su_scal. apply su_ext. intros; unfold r; ring. }
    rewrite HG. replace (- sum_upto m (fun p => a i p * (b i p - bs i p)) * - G)
      with (G * sum_upto m (fun p => a i p * (b i p - bs i p))) by ring.
    rewrite <- su_scal, <- su_plus. rewrite <- (su_0 m). apply su_ext. intros p Hpm.
    specialize (Hst i p Hi Hpm). fold G in Hst.
    replace (G * (a i p * (b i p - bs i p)) + k i p * (bs i p - b0 i p) * (b i p - bs i p))
      with ((a i p * G + k i p * (bs i p - b0 i p)) * (b i p - bs i p)) by ring.
    rewrite Hst. ring. }
  fold r. lra.
Qed.

Lemma lift1 n W nobs (E : (nat -> R) -> nat -> R) (k b0 bs : nat -> R) :
  minimises (fun _ => True)
    (cov_objective2 n 1 W nobs (fun b => E (fun i => b i O)) (fun i _ => k i) (fun i _ => b0 i)) (fun i _ => bs i) ->
  minimises (fun _ => True) (cov_objective n W nobs E k b0) bs.
Proof.
  intros [_ H]. split; auto. intros b _. specialize (H (fun i _ => b i) I).
  unfold cov_objective2, cov_objective in *.
  rewrite (su_ext n (fun i => sum_upto 1 _) (fun i => gauss_constraint (k i) (b0 i) (bs i))) in H by (intros; simpl; ring).
  rewrite (su_ext n (fun i => sum_upto 1 _) (fun i => gauss_constraint (k i) (b0 i) (b i))) in H by (intros; simpl; ring).
  exact H.
Qed.

Lemma matvec_su n A x i : matvec n A x i = sum_upto n (fun j => A i j * x j).
Proof. unfold matvec. apply rsum_upto. Qed.

Lemma cov_lite_mult n W nobs na z k b0 sol (mask : nat -> bool) :
  symmetric n W -> psd n W ->
  (forall i, (i < n)%nat -> 0 < na i /\ 0 < k i /\ mask i = false) ->
  solves n (A_lite_mult W na k) (b_lite_mult n W nobs na z k b0) sol ->
  minimises (fun _ => True)
    (cov_objective n W nobs (fun b i => z i + na i * b i) k b0)
    (profile_cov_lite_mult mask b0 sol).
Proof.
  intros Hs Hp Hpos Hsol.
  set (bs := profile_cov_lite_mult mask b0 sol).
  assert (Hbs: forall i, (i < n)%nat -> bs i = sol i).
  { intros i Hi. unfold bs, profile_cov_lite_mult. destruct (Hpos i Hi) as (_&_&->). auto. }
  apply lift1.
  apply stationary_min with (a := fun i _ => na i); auto.
  - intros i p Hi _. destruct (Hpos i Hi); lra.
  - intros b i Hi. simpl. ring.
  - intros i p Hi _. specialize (Hsol i Hi). rewrite matvec_su in Hsol.
    unfold A_lite_mult, b_lite_mult in Hsol. rewrite matvec_su in Hsol.
    rewrite (su_ext n _ (fun j => na i * (W i j * (na j * sol j)) + delta i j * (k i * sol j))) in Hsol.
    2:{ intros j Hj. rewrite !safe_pos_id by (apply Hpos; auto). ring. }
    rewrite su_plus, su_scal, su_delta in Hsol by auto.
    rewrite safe_pos_id in Hsol by (apply Hpos; auto).
    rewrite (su_ext n _ (fun j => W i j * (na j * sol j) - W i j * (nobs j - z j))).
    2:{ intros j Hj. rewrite Hbs by auto. ring. }
    rewrite su_minus, Hbs by auto. lra.
Qed.

Lemma cov_lite_add n W nobs varb nexp b0 sol :
  symmetric n W -> psd n W ->
  solves n (A_lite_add W varb) (b_lite_add n W nobs varb nexp b0) sol ->
  minimises (fun _ => True)
    (cov_objective n W nobs (fun b i => nexp i + sqrt (varb i) * b i) (fun _ => 1) b0) sol.
Proof.
  intros Hs Hp Hsol. apply lift1.
  apply stationary_min with (a := fun i _ => sqrt (varb i)); auto.
  - intros; lra.
  - intros b i Hi. simpl. ring.
  - intros i p Hi _. specialize (Hsol i Hi). rewrite matvec_su in Hsol.
    unfold A_lite_add, b_lite_add in Hsol. rewrite matvec_su in Hsol.
    rewrite (su_ext n _ (fun j => sqrt (varb i) * (W i j * (sqrt (varb j) * sol j)) + delta i j * sol j)) in Hsol
      by (intros; ring).
    rewrite su_plus, su_scal, su_delta in Hsol by auto.
    rewrite (su_ext n _ (fun j => W i j * (sqrt (varb j) * sol j) - W i j * (nobs j - nexp j))) by (intros; ring).
    rewrite su_minus. lra.
Qed.

Lemma cov_full_mult n m W nobs norm k b0 (mask : nat -> nat -> bool) nbeta :
  symmetric n W -> psd n W ->
  (forall i p, (i < n)%nat -> (p < m)%nat -> mask i p = false -> 0 < k i p) ->
  (forall i p, (i < n)%nat -> (p < m)%nat -> mask i p = true -> b0 i p = 1) ->
  solves n (A_full W (n2k m norm k mask)) (b_full_mult n m W nobs norm k b0 mask) nbeta ->
  minimises (fun _ => True)
    (cov_objective2 n m W nobs
       (fun b i => sum_upto m (fun p => if mask i p then norm i p else norm i p * b i p))
       (fun i p => if mask i p then 0 else k i p) b0)
    (profile_cov_full_mult n W nobs norm k b0 mask nbeta).
Proof.
  intros Hs Hp Hk Hm Hsol.
  set (bs := profile_cov_full_mult n W nobs norm k b0 mask nbeta).
  set (E := fun (b : nat -> nat -> R) i => sum_upto m (fun p => if mask i p then norm i p else norm i p * b i p)).
  assert (HE: forall i, (i < n)%nat -> E bs i = nbeta i).
  { intros i Hi. specialize (Hsol i Hi). rewrite matvec_su in Hsol.
    unfold A_full, b_full_mult in Hsol. rewrite matvec_su, rsum_upto in Hsol.
    set (D := n2k m norm k mask i) in *.
    rewrite (su_ext n _ (fun j => D * (W i j * nbeta j) + delta i j * nbeta j)) in Hsol by (intros; ring).
    rewrite su_plus, su_scal, su_delta in Hsol by auto.
    unfold E. set (G := matvec n W (fun j => nbeta j - nobs j) i).
    assert (HG: G = sum_upto n (fun j => W i j * nbeta j) - sum_upto n (fun j => W i j * nobs j)).
    { unfold G. rewrite matvec_su, <- su_minus. apply su_ext; intros; ring. }
    rewrite (su_ext m _ (fun p => norm i p * b0 i p
       - G * (if mask i p then 0 else norm i p * norm i p / k i p))).
    - rewrite su_minus, su_scal.
      assert (HD: sum_upto m (fun p => if mask i p then 0 else norm i p * norm i p / k i p) = D)
        by (unfold D, n2k; rewrite rsum_upto; auto).
      rewrite HD. rewrite HG. nra.
    - intros p Hpm. unfold bs, profile_cov_full_mult. fold G. destruct (mask i p) eqn:Em.
      + rewrite Hm by auto. ring.
      + specialize (Hk i p Hi Hpm Em). field. lra. }
  apply stationary_min with (a := fun i p => if mask i p then 0 else norm i p); auto.
  - intros i p Hi Hpm. destruct (mask i p) eqn:Em; [lra|]. specialize (Hk i p Hi Hpm Em). lra.
  - intros b i Hi. fold E. unfold E. rewrite <- su_minus. apply su_ext. intros p _. destruct (mask i p); ring.
  - intros i p Hi Hpm. fold E.
    rewrite (su_ext n _ (fun j => W i j * (nbeta j - nobs j))).
    2:{ intros j Hj. rewrite HE by auto. auto. }
    unfold bs, profile_cov_full_mult. rewrite matvec_su.
    destruct (mask i p) eqn:Em; [ring|]. specialize (Hk i p Hi Hpm Em). field. lra.
Qed.

Lemma cov_full_add n m W nobs norm varb b0 nbeta :
  symmetric n W -> psd n W ->
  (forall i p, (i < n)%nat -> (p < m)%nat -> 0 <= varb i p) ->
  let nexp := fun i => sum_upto m (fun p => norm i p) in
  solves n (A_full W (varsum m varb)) (b_full_add n m W nobs varb b0 nexp) nbeta ->
  minimises (fun _ => True)
    (cov_objective2 n m W nobs
       (fun b i => sum_upto m (fun p => norm i p + sqrt (varb i p) * b i p))
       (fun i p => 1) b0)
    (profile_cov_full_add n W nobs varb b0 nexp nbeta).
Proof.
  intros Hs Hp Hv nexp Hsol.
  set (bs := profile_cov_full_add n W nobs varb b0 nexp nbeta).
  set (E := fun (b : nat -> nat -> R) i => sum_upto m (fun p => norm i p + sqrt (varb i p) * b i p)).
  assert (HE: forall i, (i < n)%nat -> E bs i = nbeta i + nexp i).
  { intros i Hi. specialize (Hsol i Hi). rewrite matvec_su in Hsol.
    unfold A_full, b_full_add in Hsol. rewrite matvec_su, rsum_upto in Hsol.
    set (D := varsum m varb i) in *.
    rewrite (su_ext n _ (fun j => D * (W i j * nbeta j) + delta i j * nbeta j)) in Hsol by (intros; ring).
    rewrite su_plus, su_scal, su_delta in Hsol by auto.
    unfold E. set (G := matvec n W (fun j => nbeta j + nexp j - nobs j) i).
    assert (HG: G = sum_upto n (fun j => W i j * nbeta j) - sum_upto n (fun j => W i j * (nobs j - nexp j))).
    { unfold G. rewrite matvec_su, <- su_minus. apply su_ext; intros; ring. }
    rewrite (su_ext m _ (fun p => (norm i p + sqrt (varb i p) * b0 i p) - G * varb i p)).
    - rewrite su_minus, su_scal, su_plus.
      assert (HD: sum_upto m (varb i) = D) by (unfold D, varsum; rewrite rsum_upto; auto).
      rewrite HD. change (sum_upto m (norm i)) with (nexp i). rewrite HG. clear - Hsol.
      set (A := sum_upto n (fun j => W i j * nbeta j)) in *.
      set (B := sum_upto n (fun j => W i j * (nobs j - nexp j))) in *. lra.
    - intros p Hpm. unfold bs, profile_cov_full_add. fold G.
      pose proof (sqrt_sqrt _ (Hv i p Hi Hpm)). nra. }
  apply stationary_min with (a := fun i p => sqrt (varb i p)); auto.
  - intros; lra.
  - intros b i Hi. fold E. unfold E. rewrite <- su_minus. apply su_ext. intros; ring.
  - intros i p Hi Hpm. fold E.
    rewrite (su_ext n _ (fun j => W i j * (nbeta j + nexp j - nobs j))).
    2:{ intros j Hj. rewrite HE by auto. ring. }
    unfold bs, profile_cov_full_add. rewrite matvec_su. ring.
Qed.
