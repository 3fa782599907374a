(** Proofs about the diagnostics of the bin-by-bin nuisances. *)
From Coq Require Import List Reals Bool Arith Lia Lra.
From Verif Require Import PyList RBase BBStat_Model BBStat_Spec BBStat_Proof Mat_Model Mat_Proof Linear_Model Linear_Proof Bdiag_Model Bdiag_Spec.
Import ListNotations.
Local Open Scope R_scope.

Lemma dlim_ext f g x d : (forall y, f y = g y) -> derivable_pt_lim f x d -> derivable_pt_lim g x d.
Proof. intros E H eps He. destruct (H eps He) as [del D]. exists del. intros h Hh Hd. rewrite <- !E. auto. Qed.
Lemma dlim_eq f x d d' : d = d' -> derivable_pt_lim f x d -> derivable_pt_lim f x d'.
Proof. intros <-; auto. Qed.
Lemma dlim_affine a e x : derivable_pt_lim (fun y => a + e * y) x e.
Proof.
  apply (dlim_eq _ _ (0 + e * 1)); [ring|]. apply (derivable_pt_lim_plus (fun _ => a) (fun y => e * y)).
  - apply derivable_pt_lim_const.
  - apply (derivable_pt_lim_scal (fun y => y)). apply derivable_pt_lim_id.
Qed.
Lemma dlim_ln f x d : 0 < f x -> derivable_pt_lim f x d -> derivable_pt_lim (fun y => ln (f y)) x (d / f x).
Proof.
  intros P H. apply (dlim_eq _ _ (/ f x * d)); [field; lra|]. apply (derivable_pt_lim_comp f ln); auto. apply derivable_pt_lim_ln. auto.
Qed.
Lemma dlim_inv f x d : f x <> 0 -> derivable_pt_lim f x d -> derivable_pt_lim (fun y => / f y) x (- d / (f x * f x)).
Proof.
  intros P H. apply (dlim_ext (fun y => 1 / f y)); [intros; unfold Rdiv; ring|].
  apply (dlim_eq _ _ ((0 * f x - d * 1) / Rsqr (f x))); [unfold Rsqr; field; auto|].
  apply (derivable_pt_lim_div (fun _ => 1) f); auto. apply derivable_pt_lim_const.
Qed.

(** *** the expectation is affine *)
Lemma nexp_affine t b x : lb_nexp t b x = lb_nexp t b 0 + slope t b * x.
Proof.
  unfold lb_nexp, slope, apply_lite. destruct t.
  - induction (lb_procs b) as [|p r IH]; simpl; [ring|]. rewrite IH.
    destruct (fst p || bi_mask (lb_info b)); ring.
  - induction (lb_procs b) as [|p r IH]; simpl; [ring|]. rewrite IH.
    destruct (fst p || bi_mask (lb_info b)); ring.
  - generalize (safe_pos (n_active (lb_procs b))) as nb. intros nb.
    induction (lb_procs b) as [|p r IH]; simpl; [ring|]. rewrite IH.
    unfold Rdiv. ring.
Qed.
Lemma dnexp t b x : derivable_pt_lim (lb_nexp t b) x (slope t b).
Proof. apply (dlim_ext (fun y => lb_nexp t b 0 + slope t b * y)); [intros; symmetry; apply nexp_affine|]. apply dlim_affine. Qed.

(** *** the derivatives *)
Lemma d_lbeta t b x : (t = Gamma -> 0 < x) -> derivable_pt_lim (lbeta_bin t (lb_info b) (lb_beta0 b)) x (dconstraint t b x).
Proof.
  intros G. unfold lbeta_bin, dconstraint. destruct t.
  - specialize (G eq_refl). destruct (Reqb (lb_beta0 b) 0) eqn:E.
    + apply (dlim_ext (fun y => (- bi_kstat (lb_info b) * lb_beta0 b * (ln 1 - logbeta0_of (lb_beta0 b)) - bi_kstat (lb_info b) * lb_beta0 b) + bi_kstat (lb_info b) * y)); [intros; ring|].
      apply (dlim_eq _ _ (bi_kstat (lb_info b))); [ring|]. apply dlim_affine.
    + apply (dlim_ext (fun y => (- bi_kstat (lb_info b) * lb_beta0 b) * ln y + ((bi_kstat (lb_info b) * lb_beta0 b * logbeta0_of (lb_beta0 b) - bi_kstat (lb_info b) * lb_beta0 b) + bi_kstat (lb_info b) * y))); [intros; ring|].
      apply (dlim_eq _ _ ((- bi_kstat (lb_info b) * lb_beta0 b) * (1 / x) + bi_kstat (lb_info b))); [field; lra|].
      apply (derivable_pt_lim_plus (fun y => (- bi_kstat (lb_info b) * lb_beta0 b) * ln y)); [|apply dlim_affine].
      apply (derivable_pt_lim_scal (fun y => ln y)). apply (dlim_ln (fun y => y)); auto. apply derivable_pt_lim_id.
  - destruct (bi_mask (lb_info b)); [apply derivable_pt_lim_const|].
    apply (dlim_ext (fun y => (1/2) * bi_kstat (lb_info b) * ((- lb_beta0 b + 1 * y) * (- lb_beta0 b + 1 * y)))); [intros; ring|].
    apply (dlim_eq _ _ ((1/2) * bi_kstat (lb_info b) * (1 * (- lb_beta0 b + 1 * x) + (- lb_beta0 b + 1 * x) * 1))); [field|].
    apply (derivable_pt_lim_scal (fun y => (- lb_beta0 b + 1 * y) * (- lb_beta0 b + 1 * y))).
    apply (derivable_pt_lim_mult (fun y => - lb_beta0 b + 1 * y) (fun y => - lb_beta0 b + 1 * y)); apply dlim_affine.
  - apply (dlim_ext (fun y => (1/2) * ((- lb_beta0 b + 1 * y) * (- lb_beta0 b + 1 * y)))); [intros; ring|].
    apply (dlim_eq _ _ ((1/2) * (1 * (- lb_beta0 b + 1 * x) + (- lb_beta0 b + 1 * x) * 1))); [field|].
    apply (derivable_pt_lim_scal (fun y => (- lb_beta0 b + 1 * y) * (- lb_beta0 b + 1 * y))).
    apply (derivable_pt_lim_mult (fun y => - lb_beta0 b + 1 * y) (fun y => - lb_beta0 b + 1 * y)); apply dlim_affine.
Qed.
Lemma dd_lbeta t b x : (t = Gamma -> 0 < x) -> derivable_pt_lim (dconstraint t b) x (ddconstraint t b x).
Proof.
  intros G. unfold dconstraint, ddconstraint. destruct t.
  - specialize (G eq_refl). destruct (Reqb (lb_beta0 b) 0).
    + rewrite Rmult_0_r. apply derivable_pt_lim_const.
    + apply (dlim_ext (fun y => bi_kstat (lb_info b) + (- bi_kstat (lb_info b) * lb_beta0 b) * / y)); [intros; unfold Rdiv; ring|].
      apply (dlim_eq _ _ (0 + (- bi_kstat (lb_info b) * lb_beta0 b) * (- 1 / (x * x)))); [field; lra|].
      apply (derivable_pt_lim_plus (fun _ => bi_kstat (lb_info b))); [apply derivable_pt_lim_const|].
      apply (derivable_pt_lim_scal (fun y => / y)). apply (dlim_inv (fun y => y)); [lra|apply derivable_pt_lim_id].
  - destruct (bi_mask (lb_info b)); [apply derivable_pt_lim_const|].
    apply (dlim_ext (fun y => - lb_beta0 b * bi_kstat (lb_info b) + bi_kstat (lb_info b) * y)); [intros; ring|]. apply dlim_affine.
  - apply (dlim_ext (fun y => - lb_beta0 b + 1 * y)); [intros; ring|]. apply dlim_affine.
Qed.
Lemma d_ln l nobs var f x d : (l = Poisson -> 0 < f x) -> (l = Chisq -> var <> 0) -> derivable_pt_lim f x d ->
  derivable_pt_lim (fun y => ln_bin l nobs var (f y)) x (d * dln l nobs var (f x)).
Proof.
  intros P V H. unfold ln_bin, dln. destruct l.
  - specialize (P eq_refl). destruct (Reqb nobs 0) eqn:E.
    + apply (dlim_ext (fun y => (- nobs * (ln 1 - lognobs_of nobs) - nobs) + f y)); [intros; ring|].
      apply (dlim_eq _ _ (0 + d)); [ring|]. apply (derivable_pt_lim_plus (fun _ => - nobs * (ln 1 - lognobs_of nobs) - nobs)); auto. apply derivable_pt_lim_const.
    + apply (dlim_ext (fun y => - nobs * ln (f y) + ((nobs * lognobs_of nobs - nobs) + f y))); [intros; ring|].
      apply (dlim_eq _ _ (- nobs * (d / f x) + (0 + d))); [field; lra|].
      apply (derivable_pt_lim_plus (fun y => - nobs * ln (f y))).
      * apply (derivable_pt_lim_scal (fun y => ln (f y))). apply dlim_ln; auto.
      * apply (derivable_pt_lim_plus (fun _ => nobs * lognobs_of nobs - nobs)); auto. apply derivable_pt_lim_const.
  - specialize (V eq_refl).
    apply (dlim_ext (fun y => / (2 * var) * ((- nobs + f y) * (- nobs + f y)))); [intros; field; auto|].
    assert (G : derivable_pt_lim (fun y => - nobs + f y) x (0 + d)).
    { apply (derivable_pt_lim_plus (fun _ => - nobs)); auto. apply derivable_pt_lim_const. }
    apply (dlim_eq _ _ (/ (2 * var) * ((0 + d) * (- nobs + f x) + (- nobs + f x) * (0 + d)))); [field; auto|].
    apply (derivable_pt_lim_scal (fun y => (- nobs + f y) * (- nobs + f y))).
    apply (derivable_pt_lim_mult (fun y => - nobs + f y) (fun y => - nobs + f y)); auto.
Qed.
Lemma dd_ln l nobs var f x d : (l = Poisson -> 0 < f x) -> (l = Chisq -> var <> 0) -> derivable_pt_lim f x d ->
  derivable_pt_lim (fun y => dln l nobs var (f y)) x (d * ddln l nobs var (f x)).
Proof.
  intros P V H. unfold dln, ddln. destruct l.
  - specialize (P eq_refl). destruct (Reqb nobs 0) eqn:E.
    + rewrite Rmult_0_r. apply derivable_pt_lim_const.
    + apply (dlim_ext (fun y => 1 + (- nobs) * / f y)); [intros; unfold Rdiv; ring|].
      apply (dlim_eq _ _ (0 + (- nobs) * (- d / (f x * f x)))); [field; lra|].
      apply (derivable_pt_lim_plus (fun _ => 1)); [apply derivable_pt_lim_const|].
      apply (derivable_pt_lim_scal (fun y => / f y)). apply dlim_inv; auto. lra.
  - specialize (V eq_refl). apply (dlim_ext (fun y => / var * (- nobs + f y))); [intros; field; auto|].
    apply (dlim_eq _ _ (/ var * (0 + d))); [ring|]. apply (derivable_pt_lim_scal (fun y => - nobs + f y)).
    apply (derivable_pt_lim_plus (fun _ => - nobs)); auto. apply derivable_pt_lim_const.
Qed.
Definition lb_inside (l : lik) (t : bbtype) (b : lbin) (x : R) : Prop :=
  (l = Poisson -> lb_obs b <> None -> 0 < lb_nexp t b x) /\ (t = Gamma -> 0 < x) /\
  (l = Chisq -> forall nobs var, lb_obs b = Some (nobs, var) -> var <> 0).
Theorem lb_autodiff l t b x : lb_inside l t b x ->
  derivable_pt_lim (lb_loss l t b) x (lb_grad l t b x) /\ derivable_pt_lim (lb_grad l t b) x (lb_hess l t b x).
Proof.
  intros (P & G & V). unfold lb_loss, lb_grad, lb_hess. destruct (lb_obs b) as [[nobs var]|].
  - specialize (V). assert (V' : l = Chisq -> var <> 0) by (intros E; exact (V E nobs var eq_refl)).
    assert (P' : l = Poisson -> 0 < lb_nexp t b x) by (intros E; apply P; auto; discriminate).
    split.
    + unfold loss_lite. apply (derivable_pt_lim_plus (fun y => ln_bin l nobs var (lb_nexp t b y))).
      * apply d_ln; auto. apply dnexp.
      * apply d_lbeta; auto.
    + apply (derivable_pt_lim_plus (fun y => slope t b * dln l nobs var (lb_nexp t b y)) (dconstraint t b)); [|apply dd_lbeta; auto].
      apply (derivable_pt_lim_scal (fun y => dln l nobs var (lb_nexp t b y))). apply dd_ln; auto. apply dnexp.
  - split.
    + rewrite Rplus_0_l. apply d_lbeta; auto.
    + apply (derivable_pt_lim_plus (fun _ => 0) (dconstraint t b)); [apply derivable_pt_lim_const|apply dd_lbeta; auto].
Qed.

(** *** the profiled nuisance is stationary *)
Lemma fermat f x d eps : 0 < eps -> (forall y, x - eps < y < x + eps -> f x <= f y) -> derivable_pt_lim f x d -> d = 0.
Proof.
  intros E M D. set (pr := exist _ d D : derivable_pt f x).
  assert (Z := deriv_minimum f (x - eps) (x + eps) x pr ltac:(lra) ltac:(lra) (fun y A B => M y (conj A B))). exact Z.
Qed.
Definition to_lb (minstat : R) (s : sbin) : lbin := mkLB (lite_info (map raw (s_procs s)) minstat) (map lp (s_procs s)) (s_obs s) (s_beta0 s).
Lemma nexp_expectation t minstat s x : usable minstat (s_procs s) -> 0 < yield_mc (s_procs s) ->
  lb_nexp t (to_lb minstat s) x = expectation t (s_procs s) x.
Proof.
  intros U Y. unfold lb_nexp, to_lb; cbn [lb_info lb_procs]. assert (M := proj2 (mask_spec (s_procs s) minstat) U).
  unfold apply_lite, expectation. destruct t.
  - apply apply_lite_mult_sum; auto.
  - apply apply_lite_mult_sum; auto.
  - rewrite varbeta_spec. apply apply_lite_add_sum; auto.
Qed.
Lemma inside_lb l t minstat s x : usable minstat (s_procs s) -> sane l t s -> inside l t s x -> lb_inside l t (to_lb minstat s) x.
Proof.
  intros U (V & Y & B0 & GI) (P & G). split; [|split]; auto.
  - intros E O. rewrite nexp_expectation by auto. auto.
  - intros -> nobs var O. cbn [to_lb lb_obs] in O. rewrite O in GI. destruct GI as (GI & _). lra.
Qed.
Lemma near_admissible l t s nobs var x : s_obs s = Some (nobs, var) -> inside l t s x ->
  exists eps, 0 < eps /\ forall y, x - eps < y < x + eps -> admissible l t (s_procs s) nobs (s_beta0 s) y.
Proof.
  intros O (P & G).
  assert (A : exists a e, forall y, expectation t (s_procs s) y = a + e * y).
  { destruct t; cbn [expectation]; [exists (yield_exact (s_procs s)), (yield_mc (s_procs s))|exists (yield_exact (s_procs s)), (yield_mc (s_procs s))|
      exists (yield_exact (s_procs s) + yield_mc (s_procs s)), (sqrt (mc_variance (s_procs s)))]; intros; ring. }
  destruct A as (a & e & A).
  assert (E1 : exists eps, 0 < eps /\ (l = Poisson -> forall y, x - eps < y < x + eps -> 0 < expectation t (s_procs s) y)).
  { destruct l; [|exists 1; split; [lra|discriminate]]. assert (Q : 0 < expectation t (s_procs s) x) by (apply P; [auto|rewrite O; discriminate]).
    rewrite A in Q. exists ((a + e * x) / (Rabs e + 1)). assert (RE := Rabs_pos e). split; [apply Rdiv_lt_0_compat; lra|].
    intros _ y Hy. rewrite A. set (q := (a + e * x) / (Rabs e + 1)) in *.
    assert (QE : a + e * x = q * (Rabs e + 1)) by (unfold q; field; lra).
    assert (q > 0) by (unfold q; apply Rdiv_lt_0_compat; lra).
    assert (D : Rabs (y - x) <= q) by (apply Rabs_le; lra).
    assert (F : - (Rabs e * q) <= e * (y - x)).
    { assert (F1 : Rabs (e * (y - x)) <= Rabs e * q) by (rewrite Rabs_mult; apply Rmult_le_compat_l; auto).
      assert (F2 := Rle_abs (- (e * (y - x)))). rewrite Rabs_Ropp in F2. lra. }
    replace (a + e * y) with ((a + e * x) + e * (y - x)) by ring. rewrite QE. lra. }
  assert (E2 : exists eps, 0 < eps /\ (t = Gamma -> forall y, x - eps < y < x + eps -> 0 < y)).
  { destruct t; [|exists 1; split; [lra|discriminate]..]. exists x. split; [auto|]. intros; lra. }
  destruct E1 as (u & U & HU), E2 as (v & V & HV). exists (Rmin u v). split; [apply Rmin_pos; auto|].
  intros y Hy. assert (M1 := Rmin_l u v). assert (M2 := Rmin_r u v). split.
  - destruct l; cbn [dev_dom]; auto. assert (X := HU eq_refl y ltac:(lra)). split; [lra|auto].
  - destruct t; cbn [constraint_dom]; auto. assert (X := HV eq_refl y ltac:(lra)). split; [lra|auto].
Qed.
Theorem profile_stationary l t minstat s : usable minstat (s_procs s) -> sane l t s -> inside l t s (lb_profile l t (to_lb minstat s)) ->
  lb_grad l t (to_lb minstat s) (lb_profile l t (to_lb minstat s)) = 0.
Proof.
  intros U S I. destruct S as (V & Y & B0 & GI) eqn:ES. clear ES.
  assert (D := proj1 (lb_autodiff l t _ _ (inside_lb l t minstat s _ U (conj V (conj Y (conj B0 GI))) I))).
  destruct (s_obs s) as [[nobs var]|] eqn:O.
  - assert (LP : lb_profile l t (to_lb minstat s) = profile_lite l t (lite_info (map raw (s_procs s)) minstat) (map lp (s_procs s)) nobs var (s_beta0 s))
      by (unfold lb_profile, to_lb; cbn [lb_obs lb_info lb_procs lb_beta0]; rewrite O; auto).
    destruct (near_admissible l t s nobs var _ O I) as (eps & E & N).
    apply (fermat _ _ _ eps E) in D; auto. intros y Hy.
    assert (LL : forall z, admissible l t (s_procs s) nobs (s_beta0 s) z -> lb_loss l t (to_lb minstat s) z = objective l t (s_procs s) nobs var (s_beta0 s) z).
    { intros z Az. unfold lb_loss, to_lb; cbn [lb_obs lb_info lb_procs lb_beta0]. rewrite O. apply lite_loss_is_objective; auto. }
    rewrite !LL by (apply N; lra).
    destruct (lite_profile_minimises l t (s_procs s) minstat nobs var (s_beta0 s) V U Y GI) as [_ M].
    rewrite LP. apply M. apply N. auto.
  - unfold lb_grad, lb_profile, to_lb; cbn [lb_obs lb_info lb_procs lb_beta0]. rewrite O. unfold dconstraint; cbn [lb_info lb_beta0].
    destruct t.
    + specialize (B0 eq_refl). destruct (Reqb_spec (s_beta0 s) 0); [lra|]. field. lra.
    + destruct (bi_mask _); ring.
    + ring.
Qed.
Lemma kstat_pos minstat ps : (forall p, In p ps -> 0 <= p_sumw2 p) -> usable minstat ps -> 0 < bi_kstat (lite_info (map raw ps) minstat).
Proof. intros V U. rewrite kstat_spec by auto. apply (n_effective_pos minstat); auto. apply mc_variance_nonneg; auto. Qed.
Theorem hess_pos l t minstat s x : usable minstat (s_procs s) -> sane l t s -> inside l t s x -> 0 < lb_hess l t (to_lb minstat s) x.
Proof.
  intros U (V & Y & B0 & GI) I. unfold lb_hess. assert (K := kstat_pos minstat _ V U). assert (M := proj2 (mask_spec (s_procs s) minstat) U).
  assert (C : 0 < ddconstraint t (to_lb minstat s) x).
  { unfold ddconstraint, to_lb; cbn [lb_info lb_beta0]. destruct t; [|rewrite M; auto|lra].
    specialize (B0 eq_refl). destruct I as [_ G]. specialize (G eq_refl). destruct (Reqb_spec (s_beta0 s) 0); [lra|].
    apply Rmult_lt_0_compat; auto. apply Rdiv_lt_0_compat; auto. apply Rmult_lt_0_compat; auto. }
  assert (LO : lb_obs (to_lb minstat s) = s_obs s) by reflexivity. rewrite LO.
  destruct (s_obs s) as [[nobs var]|] eqn:O; [|lra]. set (e := slope t (to_lb minstat s)). set (n := lb_nexp t (to_lb minstat s) x).
  assert (D : 0 <= ddln l nobs var n).
  { destruct GI as (GI & _). destruct l; cbn [ddln].
    - destruct (Reqb_spec nobs 0); [lra|]. destruct I as [P _]. assert (0 < n) by (unfold n; rewrite nexp_expectation by auto; apply P; [auto|rewrite O; discriminate]).
      left. apply Rdiv_lt_0_compat; [lra|]. apply Rmult_lt_0_compat; auto.
    - left. apply Rinv_0_lt_compat. auto. }
  assert (Q : 0 <= e * e * ddln l nobs var n) by (apply Rmult_le_pos; auto; apply Rle_0_sqr). lra.
Qed.

(** *** the logged value *)
Lemma diag_sym n h : sym n (fun i j => if Nat.eqb i j then nth i h 0 else 0).
Proof. intros i j _ _. destruct (Nat.eqb_spec i j) as [->|N]; [rewrite Nat.eqb_refl; auto|]. destruct (Nat.eqb_spec j i); auto. congruence. Qed.
Lemma diag_posdef h : (forall x, In x h -> 0 < x) -> posdef (List.length h) (fun i j => if Nat.eqb i j then nth i h 0 else 0).
Proof.
  intros P x (i & Hi & Xi). unfold quad, mv.
  rewrite (sm_ext _ _ (fun i => nth i h 0 * (x i * x i))).
  2:{ intros k Hk. rewrite (sm_ext _ _ (fun j => delta k j * (nth k h 0 * x j))).
      2:{ intros j _. unfold delta. destruct (Nat.eqb k j); ring. }
      rewrite sm_delta by auto. ring. }
  assert (NN : forall k, (k < List.length h)%nat -> 0 <= nth k h 0 * (x k * x k)).
  { intros k Hk. apply Rmult_le_pos; [left; apply P, nth_In; auto|apply Rle_0_sqr]. }
  assert (LE : nth i h 0 * (x i * x i) <= sm (List.length h) (fun i => nth i h 0 * (x i * x i))).
  { rewrite <- (sm_delta (List.length h) i (fun i => nth i h 0 * (x i * x i)) Hi).
    assert (Z : 0 <= sm (List.length h) (fun k => nth k h 0 * (x k * x k) - delta i k * (nth k h 0 * (x k * x k)))).
    { apply sm_nonneg. intros k Hk. unfold delta. specialize (NN k Hk). destruct (Nat.eqb i k); lra. }
    rewrite sm_minus in Z. lra. }
  eapply Rlt_le_trans; [|exact LE]. apply Rmult_lt_0_compat; [apply P, nth_In; auto|]. apply Rsqr_pos_lt. auto.
Qed.
Lemma edm_zero gpu n g A : sym n A -> posdef n A -> (forall i, (i < n)%nat -> g i = 0) -> exists c, lib_edmval_cov gpu n g A = Ok (0, c).
Proof.
  intros S P Z. destruct (proj1 (lib_spec gpu n g A S) P) as (e & c & E & (-> & _)). exists c. rewrite E. do 2 f_equal.
  unfold vdot. rewrite sm_0; [ring|]. intros i Hi. rewrite Z by auto. ring.
Qed.
Lemma edm_iff gpu n g A e c : sym n A -> posdef n A -> lib_edmval_cov gpu n g A = Ok (e, c) ->
  0 <= e /\ (e = 0 <-> forall i, (i < n)%nat -> g i = 0).
Proof.
  intros S P E. destruct (proj1 (lib_spec gpu n g A S) P) as (e' & c' & E' & (X & I & SC)). rewrite E in E'. injection E' as <- <-.
  assert (PC := inv_posdef n A c P S I SC).
  assert (Q : e = 1 / 2 * quad n c g) by (rewrite X; unfold vdot, quad; auto).
  destruct (nonzero_dec n g) as [NZ|Z].
  - assert (Y := PC g NZ). split; [lra|]. split; [lra|]. intros Z. destruct NZ as (i & Hi & Gi). destruct Gi; auto.
  - rewrite quad_zero in Q by auto. split; [lra|]. split; auto. intros; lra.
Qed.
Lemma edm_zero_diag gpu n g h : sym n (fun i j => if Nat.eqb i j then nth i h 0 else 0) -> posdef n (fun i j => if Nat.eqb i j then nth i h 0 else 0) ->
  (forall i, (i < n)%nat -> g i = 0) -> (forall i, (i < n)%nat -> 0 < nth i h 0) ->
  exists c, lib_edmval_cov gpu n g (fun i j => if Nat.eqb i j then nth i h 0 else 0) = Ok (0, c) /\
    forall i j, (i < n)%nat -> (j < n)%nat -> c i j = if Nat.eqb i j then / nth i h 0 else 0.
Proof.
  intros S P Z PH. destruct (edm_zero gpu n g _ S P Z) as (c & E). exists c. split; auto.
  destruct (proj1 (lib_spec gpu n g _ S) P) as (e & c' & E' & (_ & I & _)). rewrite E in E'. injection E' as _ <-.
  intros i j Hi Hj. specialize (I i j Hi Hj). specialize (PH i Hi). unfold mm in I.
  rewrite (sm_ext n _ (fun k => delta i k * (nth i h 0 * c k j))) in I by (intros k _; unfold delta; destruct (Nat.eqb i k); ring).
  rewrite sm_delta in I by auto. unfold delta in I. apply Rmult_eq_reg_l with (nth i h 0); [|lra]. rewrite I. destruct (Nat.eqb i j); [field; lra|ring].
Qed.
Theorem edm_beta_zero gpu l t minstat ss :
  (forall s, In s ss -> usable minstat (s_procs s) -> sane l t s /\ inside l t s (lb_profile l t (to_lb minstat s))) ->
  let h := hesss l t (map (to_lb minstat) ss) in
  exists c, edm_beta gpu l t (map (to_lb minstat) ss) = Ok (0, c) /\
    forall i j, (i < List.length h)%nat -> (j < List.length h)%nat -> c i j = if Nat.eqb i j then / nth i h 0 else 0.
Proof.
  intros H h. unfold h, edm_beta.
  assert (SEL : forall b, In b (selected (map (to_lb minstat) ss)) -> exists s, b = to_lb minstat s /\ usable minstat (s_procs s) /\ sane l t s /\ inside l t s (lb_profile l t (to_lb minstat s))).
  { intros b B. unfold selected in B. apply filter_In in B. destruct B as [B M]. apply in_map_iff in B. destruct B as (s & <- & B).
    exists s. split; auto. apply negb_true_iff in M. assert (U : usable minstat (s_procs s)) by (apply mask_spec; auto). split; auto. }
  assert (LH : List.length (selected (map (to_lb minstat) ss)) = List.length (hesss l t (map (to_lb minstat) ss))) by (unfold hesss; rewrite map_length; auto).
  assert (POS : forall x, In x (hesss l t (map (to_lb minstat) ss)) -> 0 < x).
  { intros x X. unfold hesss in X. apply in_map_iff in X. destruct X as (b & <- & B). destruct (SEL b B) as (s & -> & U & S & I). apply hess_pos; auto. }
  rewrite <- LH. apply edm_zero_diag; [| | |intros i Hi; apply POS, nth_In; rewrite <- LH; auto].
  - apply diag_sym.
  - rewrite LH. apply diag_posdef. intros x X. unfold hesss in X. apply in_map_iff in X. destruct X as (b & <- & B).
    destruct (SEL b B) as (s & -> & U & S & I). apply hess_pos; auto.
  - intros i Hi. assert (G : In (nth i (grads l t (map (to_lb minstat) ss)) 0) (grads l t (map (to_lb minstat) ss))) by (apply nth_In; unfold grads; rewrite map_length; auto).
    revert G. generalize (nth i (grads l t (map (to_lb minstat) ss)) 0). intros x X. unfold grads in X. apply in_map_iff in X. destruct X as (b & <- & B).
    destruct (SEL b B) as (s & -> & U & S & I). apply profile_stationary; auto.
Qed.
Lemma filled_inside l t minstat s : usable minstat (s_procs s) -> sane l t s -> filled l s -> inside l t s (lb_profile l t (to_lb minstat s)).
Proof.
  intros U (V & Y & B0 & GI) F. unfold lb_profile, to_lb; cbn [lb_obs lb_info lb_procs lb_beta0]. destruct (s_obs s) as [[nobs var]|] eqn:O.
  - destruct (lite_profile_minimises l t (s_procs s) minstat nobs var (s_beta0 s) V U Y GI) as [[A1 A2] _]. split.
    + intros -> _. destruct A1 as [_ A1]. apply A1. assert (X := F eq_refl nobs var O). lra.
    + intros ->. destruct A2 as [_ A2]. apply A2. specialize (B0 eq_refl). lra.
  - split; [intros _ C; congruence|auto].
Qed.
