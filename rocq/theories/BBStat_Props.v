(** C26-C30: bin-by-bin statistical nuisances. *)
From Coq Require Import Reals List Bool Lra Lia Psatz Arith.
From Verif Require Import RBase BBStat_Model BBStat_Spec BBStat_Proof BBStatFull_Proof
  BBCov_Model BBCov_Spec BBCov_Proof.
Import ListNotations.
Open Scope R_scope.

Ltac dec0 := repeat match goal with |- context [Req_EM_T ?a ?b] => destruct (Req_EM_T a b); try lra end.

(** *** C26 lite mode *)
Theorem C26_lite_profile_minimises :
  forall l t ps minstat nobs var beta0,
  (forall p, In p ps -> 0 <= p_sumw2 p) ->
  usable minstat ps -> 0 < yield_mc ps -> good_inputs l t ps nobs var beta0 ->
  minimises (admissible l t ps nobs beta0) (objective l t ps nobs var beta0)
    (profile_lite l t (lite_info (map raw ps) minstat) (map lp ps) nobs var beta0).
Proof. exact lite_profile_minimises. Qed.
Print Assumptions C26_lite_profile_minimises.

(** what the fitter adds to the loss for this bin is the textbook objective *)
Theorem C26_lite_loss_is_objective :
  forall l t ps minstat nobs var beta0 beta,
  usable minstat ps -> 0 < yield_mc ps -> good_inputs l t ps nobs var beta0 ->
  admissible l t ps nobs beta0 beta ->
  loss_lite l t (lite_info (map raw ps) minstat) (map lp ps) nobs var beta0 beta
  = objective l t ps nobs var beta0 beta.
Proof. exact lite_loss_is_objective. Qed.
Print Assumptions C26_lite_loss_is_objective.

(** bins without usable MC statistics keep the default and are not rescaled *)
Theorem C26_lite_masked_keeps_default :
  forall l t ps minstat nobs var beta0,
  t <> NormalAdd -> ~ usable minstat ps ->
  let bi := lite_info (map raw ps) minstat in
  profile_lite l t bi (map lp ps) nobs var beta0 = beta0 /\
  (forall beta, sumR (apply_lite t bi (map lp ps) beta) = yield_exact ps + yield_mc ps) /\
  lbeta_bin t bi beta0 beta0 = 0.
Proof. exact lite_masked_default. Qed.
Print Assumptions C26_lite_masked_keeps_default.

Theorem C26_lite_additive_default :
  forall l ps minstat nobs var beta0,
  0 < var -> mc_variance ps = 0 ->
  profile_lite l NormalAdd (lite_info (map raw ps) minstat) (map lp ps) nobs var beta0 = beta0.
Proof. exact lite_additive_default. Qed.
Print Assumptions C26_lite_additive_default.

Example C26_example_hyps :
  let ps := [mkProc 4 2 3; mkProc 1 0 1] in
  (forall p, In p ps -> 0 <= p_sumw2 p) /\ usable 0 ps /\ 0 < yield_mc ps /\ n_effective ps = 8 /\
  good_inputs Poisson Gamma ps 5 1 1 /\ good_inputs Chisq NormalMult ps 5 2 1 /\
  good_inputs Poisson NormalAdd ps 0 1 0.
Proof.
  assert (E1: mc_variance [mkProc 4 2 3; mkProc 1 0 1] = 2).
  { unfold mc_variance; simpl; dec0. }
  assert (E2: mc_sumw [mkProc 4 2 3; mkProc 1 0 1] = 4) by (unfold mc_sumw; simpl; dec0).
  assert (E3: yield_mc [mkProc 4 2 3; mkProc 1 0 1] = 3) by (unfold yield_mc; simpl; dec0).
  assert (E4: yield_exact [mkProc 4 2 3; mkProc 1 0 1] = 1) by (unfold yield_exact; simpl; dec0).
  simpl. unfold usable, good_inputs, n_effective. rewrite E1, E2, E3, E4.
  repeat split; try lra.
  intros p [<-|[<-|[]]]; simpl; lra.
Qed.

(** the chi-square / normal-multiplicative minimum of that bin is not the default *)
Example C26_example_value :
  let ps := [mkProc 4 2 3; mkProc 1 0 1] in
  profile_lite Chisq NormalMult (lite_info (map raw ps) 0) (map lp ps) 5 2 1 = 28/25.
Proof.
  intros ps.
  assert (Hu: usable 0 ps) by (apply C26_example_hyps).
  assert (E3: yield_mc ps = 3) by (unfold yield_mc; simpl; dec0).
  assert (E4: yield_exact ps = 1) by (unfold yield_exact; simpl; dec0).
  assert (E5: n_effective ps = 8) by (apply C26_example_hyps).
  unfold profile_lite. rewrite n_active_spec, n_zero_var_spec, (kstat_spec _ _ Hu), E3, E4, E5.
  rewrite (proj2 (mask_spec ps 0) Hu), safe_pos_id by lra. field.
Qed.

(** *** C27 full mode *)
Theorem C27_full_profile_minimises :
  forall minstat active, (forall p, active p = true <-> usable1 minstat p) ->
  forall l t es nobs var bs,
    Forall (fun e => 0 <= p_sumw2 (fst e) /\
                     (t <> NormalAdd -> active (fst e) = false -> snd e = 1)) es ->
    t <> Gamma ->
    match l with Poisson => 0 <= nobs | Chisq => 0 < var end ->
    profile_full l t (map (fe minstat) es) nobs var = Some bs ->
    minimises (admissible_full t active l es nobs) (objective_full t active l es nobs var) bs.
Proof. exact full_profile_minimises. Qed.
Print Assumptions C27_full_profile_minimises.

Theorem C27_full_loss_is_objective :
  forall minstat active, (forall p, active p = true <-> usable1 minstat p) ->
  forall l t es nobs var bs,
    Forall (fun e => 0 <= p_sumw2 (fst e) /\
                     (t <> NormalAdd -> active (fst e) = false -> snd e = 1)) es ->
    t <> Gamma ->
    match l with Poisson => 0 <= nobs | Chisq => 0 < var end ->
    admissible_full t active l es nobs bs ->
    loss_full l t (map (fe minstat) es) nobs var bs = objective_full t active l es nobs var bs.
Proof. exact full_loss_is_objective. Qed.
Print Assumptions C27_full_loss_is_objective.

(** the chi-square profile is always defined, the Poisson one whenever data were observed
    and some process with MC uncertainty contributes *)
Theorem C27_chisq_defined :
  forall t es nobs var, t <> Gamma -> exists bs, profile_full Chisq t es nobs var = Some bs.
Proof. intros [] es nobs var H; try congruence; simpl; eauto. Qed.
Print Assumptions C27_chisq_defined.

Theorem C27_poisson_mult_defined :
  forall minstat active, (forall p, active p = true <-> usable1 minstat p) ->
  forall es nobs,
    Forall (fun e => 0 <= p_sumw2 (fst e) /\ (active (fst e) = false -> snd e = 1)) es ->
    0 < nobs -> (exists e, In e es /\ active (fst e) = true /\ p_yield (fst e) <> 0) ->
    exists bs, profile_full Poisson NormalMult (map (fe minstat) es) nobs 1 = Some bs.
Proof.
  intros minstat active Ha es nobs Hes Hn (e & Hin & Hae & Hye).
  assert (Hes': Forall (ok_entry active NormalMult) es).
  { eapply Forall_impl; [|exact Hes]. intros x [H1 H2]. split; auto. }
  assert (HS: 0 < Sof active NormalMult es).
  { unfold Sof. clear - Hes Hin Hae Hye Ha.
    assert (Hnn: forall x, In x es -> 0 <= (if active (fst x) then p_yield (fst x) * p_yield (fst x) / stat1 (fst x) else 0)).
    { intros x Hx. rewrite Forall_forall in Hes. destruct (Hes x Hx) as [H1 _].
      destruct (active (fst x)) eqn:E; [|lra]. apply Rdiv_nonneg; [nra|].
      apply (stat1_pos minstat); auto. apply Ha; auto. }
    assert (Hpos: 0 < (if active (fst e) then p_yield (fst e) * p_yield (fst e) / stat1 (fst e) else 0)).
    { rewrite Hae. rewrite Forall_forall in Hes. destruct (Hes e Hin) as [H1 _].
      apply Rdiv_lt_0_compat; [nra|]. apply (stat1_pos minstat); auto. apply Ha; auto. }
    clear Hes. induction es as [|x es IH]; simpl in *; [contradiction|].
    pose proof (Hnn x (or_introl eq_refl)).
    assert (0 <= sumR (map (fun e0 => if active (fst e0) then p_yield (fst e0) * p_yield (fst e0) / stat1 (fst e0) else 0) es)).
    { apply sumR_nonneg. intros y Hy. apply in_map_iff in Hy. destruct Hy as (w & <- & Hw). auto. }
    destruct Hin as [->|Hin]; [lra|]. specialize (IH Hin (fun y hy => Hnn y (or_intror hy))). lra. }
  assert (Hn0: 0 <= nobs) by lra.
  assert (HnS: 0 < nobs * Sof active NormalMult es) by (apply Rmult_lt_0_compat; auto).
  pose proof (poisson_full_defined minstat active Ha NormalMult es nobs Hes' Hn0 (or_introl HnS)) as Hd.
  unfold profile_full. rewrite (Sof_mult minstat active Ha NormalMult) by discriminate.
  rewrite (map_map (fe minstat)), sumR_map_minus, <- (map_map (fe minstat) n2kstat).
  rewrite (Sof_mult minstat active Ha NormalMult) by discriminate.
  change (sumR (map (fun x => fe_b0 (fe minstat x) * fe_n (fe minstat x)) es)) with (Aof NormalMult es).
  unfold tfdiv. rewrite Reqb_false by auto. eauto.
Qed.
Print Assumptions C27_poisson_mult_defined.

(** an empty bin (nobs = 0) with MC weights above one makes the code compute 0/0 (NaN) *)
Theorem C27_empty_bin_nan_refuted :
  exists es : list (proc * R),
    Forall (fun e => 0 < p_sumw2 (fst e) /\ usable1 0 (fst e) /\ snd e = 1 /\ 0 < p_yield (fst e)) es /\
    es <> [] /\
    profile_full Poisson NormalMult (map (fe 0) es) 0 1 = None.
Proof.
  exists [(mkProc 1 1 2, 1)].
  assert (Hm: betamask_of 1 1 0 = false) by (apply betamask_spec; repeat split; lra).
  split; [|split; [discriminate|]].
  - constructor; [|constructor]. simpl. repeat split; try lra; unfold mc_variance, mc_sumw; simpl; dec0.
  - unfold profile_full, tfdiv. cbn [map sumR fold_right fe fst snd].
    unfold n2kstat, fe_info, fe_n, fe_b0, full_info, raw, mkinfo; cbn -[Rmult Rdiv Rplus Rminus betamask_of solve_quad_eq Ropp IZR].
    rewrite Hm.
    replace (solve_quad_eq 1 _ _) with 0.
    { rewrite Reqb_true; auto. }
    unfold solve_quad_eq.
    replace ((2 * 2 / (1 * 1 / 1) - 1 * 2 + 0) * (2 * 2 / (1 * 1 / 1) - 1 * 2 + 0) -
      4 * 1 * (- 0 * (2 * 2 / (1 * 1 / 1) + 0))) with (Rsqr 2) by (unfold Rsqr; field).
    rewrite sqrt_Rsqr by lra. field.
Qed.
Print Assumptions C27_empty_bin_nan_refuted.

Example C27_example :
  exists active, (forall p, active p = true <-> usable1 0 p) /\
  let es := [(mkProc 2 1 3, 1); (mkProc 5 0 2, 1)] in
  Forall (fun e => 0 <= p_sumw2 (fst e) /\
                   (NormalMult <> NormalAdd -> active (fst e) = false -> snd e = 1)) es /\
  active (fst (nth 0 es (mkProc 0 0 0, 0))) = true /\
  exists bs, profile_full Poisson NormalMult (map (fe 0) es) 4 1 = Some bs.
Proof.
  exists (fun p => negb (bi_mask (full_info 0 (raw p)))).
  assert (Ha: forall p, negb (bi_mask (full_info 0 (raw p))) = true <-> usable1 0 p).
  { intros p. rewrite negb_true_iff. apply full_mask. }
  split; [exact Ha|]. cbv zeta.
  assert (H0: negb (bi_mask (full_info 0 (raw (mkProc 2 1 3)))) = true).
  { apply Ha. unfold usable1, usable, n_effective, mc_variance, mc_sumw; simpl. repeat split; dec0. }
  assert (Hf: Forall (fun e : proc * R => 0 <= p_sumw2 (fst e) /\
     (negb (bi_mask (full_info 0 (raw (fst e)))) = false -> snd e = 1)) [(mkProc 2 1 3, 1); (mkProc 5 0 2, 1)]).
  { repeat constructor; simpl; lra. }
  split; [|split].
  - eapply Forall_impl; [|exact Hf]. simpl. intros a [H1 H2]. split; auto.
  - exact H0.
  - apply (C27_poisson_mult_defined 0 _ Ha _ 4 Hf ltac:(lra)).
    exists (mkProc 2 1 3, 1). simpl. repeat split; auto.
Qed.

(** *** C28 covariance fits *)
Theorem C28_cov_lite_additive :
  forall n W nobs varb nexp b0 sol,
  symmetric n W -> psd n W ->
  solves n (A_lite_add W varb) (b_lite_add n W nobs varb nexp b0) sol ->
  minimises (fun _ => True)
    (cov_objective n W nobs (fun b i => nexp i + sqrt (varb i) * b i) (fun _ => 1) b0) sol.
Proof. exact cov_lite_add. Qed.
Print Assumptions C28_cov_lite_additive.

Theorem C28_cov_full_additive :
  forall n m W nobs norm varb b0 nbeta,
  symmetric n W -> psd n W ->
  (forall i p, (i < n)%nat -> (p < m)%nat -> 0 <= varb i p) ->
  let nexp := fun i => sum_upto m (fun p => norm i p) in
  solves n (A_full W (varsum m varb)) (b_full_add n m W nobs varb b0 nexp) nbeta ->
  minimises (fun _ => True)
    (cov_objective2 n m W nobs
       (fun b i => sum_upto m (fun p => norm i p + sqrt (varb i p) * b i p))
       (fun i p => 1) b0)
    (profile_cov_full_add n W nobs varb b0 nexp nbeta).
Proof. exact cov_full_add. Qed.
Print Assumptions C28_cov_full_additive.

Theorem C28_cov_full_multiplicative :
  forall n m W nobs norm k b0 (mask : nat -> nat -> bool) nbeta,
  symmetric n W -> psd n W ->
  (forall i p, (i < n)%nat -> (p < m)%nat -> mask i p = false -> 0 < k i p) ->
  (forall i p, (i < n)%nat -> (p < m)%nat -> mask i p = true -> b0 i p = 1) ->
  solves n (A_full W (n2k m norm k mask)) (b_full_mult n m W nobs norm k b0 mask) nbeta ->
  minimises (fun _ => True)
    (cov_objective2 n m W nobs
       (fun b i => sum_upto m (fun p => if mask i p then norm i p else norm i p * b i p))
       (fun i p => if mask i p then 0 else k i p) b0)
    (profile_cov_full_mult n W nobs norm k b0 mask nbeta).
Proof. exact cov_full_mult. Qed.
Print Assumptions C28_cov_full_multiplicative.

(** lite + multiplicative: proved when no bin is masked (missing: masked bins, see below) *)
Theorem C28_cov_lite_multiplicative_partial :
  forall n W nobs na z k b0 sol (mask : nat -> bool),
  symmetric n W -> psd n W ->
  (forall i, (i < n)%nat -> 0 < na i /\ 0 < k i /\ mask i = false) ->
  solves n (A_lite_mult W na k) (b_lite_mult n W nobs na z k b0) sol ->
  minimises (fun _ => True)
    (cov_objective n W nobs (fun b i => z i + na i * b i) k b0)
    (profile_cov_lite_mult mask b0 sol).
Proof. exact cov_lite_mult. Qed.
Print Assumptions C28_cov_lite_multiplicative_partial.

(** with a masked bin correlated to another one the code's value is not the minimiser: the
    masked bin is left floating in the linear system and only afterwards reset. Bin 1 is a
    bin whose only process has no MC uncertainty (n_active = 0, expectation 1). *)
Theorem C28_cov_lite_multiplicative_refuted :
  let W := fun i j : nat => if Nat.eqb i j then 2 else -1 in
  let nobs := fun i : nat => match i with O => 1 | _ => 2 end in
  let na := fun i : nat => match i with O => 1 | _ => 0 end in
  let z := fun i : nat => match i with O => 0 | _ => 1 end in
  let mask := fun i : nat => match i with O => false | _ => true end in
  let E := fun (b : nat -> R) i => z i + na i * b i in
  let k := fun i : nat => if mask i then 0 else 1 in
  exists sol b,
    solves 2 (A_lite_mult W na (fun _ => 1)) (b_lite_mult 2 W nobs na z (fun _ => 1) (fun _ => 1)) sol /\
    cov_objective 2 W nobs E k (fun _ => 1) b
    < cov_objective 2 W nobs E k (fun _ => 1) (profile_cov_lite_mult mask (fun _ => 1) sol).
Proof.
  intros. exists (fun _ => 1), (fun i => match i with O => 2/3 | _ => 1 end).
  assert (S0: safe_pos 0 = 1) by (unfold safe_pos; rewrite Rltb_false; lra).
  assert (S1: safe_pos 1 = 1) by (apply safe_pos_id; lra).
  split.
  - intros i Hi. destruct i as [|[|]]; [| |lia];
    unfold matvec, rsum, A_lite_mult, b_lite_mult, matvec, rsum, delta; simpl; rewrite S0, S1; lra.
  - unfold cov_objective, cov_chi2, quadform, gauss_constraint, profile_cov_lite_mult, E, k, z, na, nobs, mask, W; simpl. lra.
Qed.
Print Assumptions C28_cov_lite_multiplicative_refuted.

Example C28_example_hyps :
  let W := fun i j : nat => if Nat.eqb i j then 2 else -1 in
  symmetric 2 W /\ psd 2 W /\
  solves 2 (A_lite_add W (fun _ => 4)) (b_lite_add 2 W (fun _ => 6) (fun _ => 4) (fun _ => 1) (fun _ => 1)) (fun _ => 11/5).
Proof.
  intros W. split; [|split].
  - intros [|[|i]] [|[|j]] Hi Hj; unfold W; simpl; auto; lia.
  - intros r. unfold quadform, W; simpl.
    pose proof (Rle_0_sqr (r O)). pose proof (Rle_0_sqr (r 1%nat)). pose proof (Rle_0_sqr (r O - r 1%nat)).
    unfold Rsqr in *. nra.
  - assert (S4: sqrt 4 = 2) by (replace 4 with (Rsqr 2) by (unfold Rsqr; lra); apply sqrt_Rsqr; lra).
    intros [|[|i]] Hi; [| |lia]; unfold matvec, rsum, A_lite_add, b_lite_add, matvec, rsum, delta, W; simpl; rewrite S4; lra.
Qed.

(** *** C29: bins without active expectation *)
(** With a positive active expectation the profiled loss is a lower envelope (missing: zero
    active expectation, where it fails, see below). *)
Theorem C29_lower_envelope_partial :
  forall l t ps minstat nobs var beta0 beta,
  (forall p, In p ps -> 0 <= p_sumw2 p) ->
  usable minstat ps -> 0 < yield_mc ps -> good_inputs l t ps nobs var beta0 ->
  admissible l t ps nobs beta0 beta ->
  let bi := lite_info (map raw ps) minstat in
  loss_lite l t bi (map lp ps) nobs var beta0 (profile_lite l t bi (map lp ps) nobs var beta0)
  <= loss_lite l t bi (map lp ps) nobs var beta0 beta.
Proof.
  intros l t ps minstat nobs var beta0 beta Hnn Hu Hn G Ha bi.
  destruct (lite_profile_minimises l t ps minstat nobs var beta0 Hnn Hu Hn G) as [Hd Hm].
  unfold bi. rewrite !lite_loss_is_objective; auto.
Qed.
Print Assumptions C29_lower_envelope_partial.

(** Default settings (Poisson, gamma). The only process with MC uncertainty predicts 0 in
    this bin (signal strength 0), another process predicts 1, three events are observed:
    beta = 1 (no penalty) has a smaller loss than the profiled value. *)
Theorem C29_zero_active_refuted :
  exists ps nobs,
    (forall p, In p ps -> 0 <= p_sumw2 p /\ 0 <= p_yield p) /\ usable 0 ps /\ yield_mc ps = 0 /\
    0 < nobs /\
    let bi := lite_info (map raw ps) 0 in
    loss_lite Poisson Gamma bi (map lp ps) nobs 1 1 1
    < loss_lite Poisson Gamma bi (map lp ps) nobs 1 1
        (profile_lite Poisson Gamma bi (map lp ps) nobs 1 1).
Proof.
  set (ps := [mkProc 1 1 0; mkProc 1 0 1]). exists ps, 3.
  assert (Hu: usable 0 ps). { unfold usable, n_effective, mc_variance, mc_sumw; simpl. repeat split; dec0. }
  assert (E3: yield_mc ps = 0) by (unfold yield_mc; simpl; dec0).
  assert (E4: yield_exact ps = 1) by (unfold yield_exact; simpl; dec0).
  assert (E5: n_effective ps = 1) by (unfold n_effective, mc_sumw, mc_variance; simpl; dec0).
  split; [intros p [<-|[<-|[]]]; simpl; lra|]. split; [auto|]. split; [auto|]. split; [lra|].
  intros bi. pose proof (proj2 (mask_spec ps 0) Hu) as Hm. fold bi in Hm.
  unfold loss_lite, apply_lite. rewrite !apply_lite_mult_sum by auto. rewrite E3, E4.
  rewrite !Rmult_0_l. unfold lbeta_bin. unfold bi at 1 2 3 4. rewrite (kstat_spec _ _ Hu), E5.
  unfold logbeta0_of. rewrite (Reqb_false 1 0) by lra. rewrite ln_1.
  unfold profile_lite. rewrite n_active_spec, n_zero_var_spec, E3, E4.
  unfold bi. rewrite (kstat_spec _ _ Hu), E5. fold bi. rewrite Hm.
  assert (S0: safe_pos 0 = 1) by (unfold safe_pos; rewrite Rltb_false; lra). rewrite S0.
  set (x := solve_quad_eq _ _ _).
  destruct (root_ge (1*(1+1)) (1*(1-3-1*1)+1*1) (-(1)*1*1) 1 ltac:(lra) ltac:(lra)) as [Hr H1].
  fold x in Hr, H1.
  assert (x <> 1) by (intros E; rewrite E in Hr; lra).
  pose proof (ln_lt_sub1 x ltac:(lra) H). lra.
Qed.
Print Assumptions C29_zero_active_refuted.

(** *** C30 the constraint term *)
Lemma lite_kstat_pos ps minstat : (forall p, In p ps -> 0 <= p_sumw2 p) ->
  0 < bi_kstat (lite_info (map raw ps) minstat).
Proof.
  intros H. destruct (bi_mask (lite_info (map raw ps) minstat)) eqn:E.
  - unfold lite_info, mkinfo in *. simpl in *. rewrite E. lra.
  - pose proof (proj1 (mask_spec ps minstat) E) as Hu. rewrite (kstat_spec _ _ Hu).
    apply (n_effective_pos minstat); auto. apply mc_variance_nonneg; auto.
Qed.

Theorem C30_penalty_nonneg :
  forall t ps minstat beta0 beta,
  (forall p, In p ps -> 0 <= p_sumw2 p) -> (t = Gamma -> 0 <= beta0) -> constraint_dom t beta0 beta ->
  let bi := lite_info (map raw ps) minstat in
  0 <= lbeta_bin t bi beta0 beta /\
  (t <> NormalMult \/ usable minstat ps -> (lbeta_bin t bi beta0 beta = 0 <-> beta = beta0)) /\
  (t = NormalMult -> ~ usable minstat ps -> lbeta_bin t bi beta0 beta = 0).
Proof.
  intros t ps minstat beta0 beta Hnn H0 Hd bi. pose proof (lite_kstat_pos ps minstat Hnn) as Hk. fold bi in Hk.
  pose proof (mask_spec ps minstat) as Hms. fold bi in Hms. clearbody bi.
  assert (Hsq: forall c, 0 < c -> 0 <= (1/2)*((beta-beta0)*(beta-beta0))*c /\
     ((1/2)*((beta-beta0)*(beta-beta0))*c = 0 <-> beta = beta0)).
  { intros c Hc. pose proof (Rle_0_sqr (beta-beta0)). unfold Rsqr in *. split; [nra|]. split.
    - intros E. assert ((beta-beta0)*(beta-beta0) = 0) by nra.
      apply Rmult_integral in H1. lra.
    - intros ->. ring. }
  destruct t; simpl.
  - specialize (H0 eq_refl). destruct Hd as [Hd Hd']. unfold logbeta0_of, Reqb.
    destruct (Req_EM_T beta0 0) as [E|E].
    + rewrite E. pose proof (Rmult_le_pos _ _ (Rlt_le _ _ Hk) Hd) as Hkb.
      replace (- bi_kstat bi * 0 * (ln 1 - ln 1) + bi_kstat bi * (beta - 0)) with (bi_kstat bi * beta) by ring.
      split; [exact Hkb|]. split; [|discriminate]. intros _. split; [|intros ->; ring].
      intros Hz. apply Rmult_integral in Hz. lra.
    + specialize (Hd' E). pose proof (ln_tangent beta beta0 Hd' ltac:(lra)) as Ht.
      assert (Hkb: 0 < bi_kstat bi * beta0) by (apply Rmult_lt_0_compat; lra).
      assert (Eq: bi_kstat bi * (beta - beta0) = bi_kstat bi * beta0 * ((beta-beta0)/beta0)) by (field; auto).
      rewrite Eq. set (w := (beta - beta0)/beta0) in *. set (kb := bi_kstat bi * beta0) in *.
      replace (- bi_kstat bi * beta0 * (ln beta - ln beta0) + kb * w) with (kb * (w - (ln beta - ln beta0)))
        by (unfold kb; ring).
      split; [apply Rmult_le_pos; lra|]. split; [|discriminate]. intros _. split;
        [|intros Eb; unfold w; rewrite Eb; unfold Rdiv; ring].
      intros H. destruct (Req_dec beta beta0); auto. exfalso.
      assert (Hr: 0 < beta/beta0) by (apply Rdiv_lt_0_compat; lra).
      assert (beta/beta0 <> 1).
      { intros E1. apply H1. apply Rmult_eq_reg_r with (/beta0); [|apply Rinv_neq_0_compat; auto].
        rewrite Rinv_r by auto. exact E1. }
      pose proof (ln_lt_sub1 _ Hr H2) as Hs. rewrite ln_div' in Hs by lra.
      replace (beta/beta0 - 1) with w in Hs by (unfold w; field; auto).
      apply Rmult_integral in H. lra.
  - destruct (bi_mask bi) eqn:Em.
    + split; [lra|]. split; auto. intros [H|H]; [congruence|]. apply Hms in H. congruence.
    + destruct (Hsq _ Hk). split; auto. split; auto. intros _ Hn. exfalso. apply Hn. apply Hms. auto.
  - destruct (Hsq 1 Rlt_0_1). rewrite Rmult_1_r in *. split; auto. split; auto. discriminate.
Qed.
Print Assumptions C30_penalty_nonneg.

(** the additive type does penalise a bin without MC statistics (the value profiled there is
    the centre, so no penalty arises in a profiled fit) *)
Theorem C30_additive_masked_refuted :
  exists ps beta, ~ usable 0 ps /\ 0 < lbeta_bin NormalAdd (lite_info (map raw ps) 0) 0 beta.
Proof.
  exists [mkProc 1 0 1], 1. split.
  - intros [H _]. apply H. unfold mc_variance; simpl; dec0.
  - simpl. lra.
Qed.
Print Assumptions C30_additive_masked_refuted.

(** full form - reduced form does not depend on beta (for any log-gamma function) *)
Theorem C30_full_minus_reduced_constant :
  forall lgamma nb t bi beta0 b1 b2 f1 f2,
  lbeta_bin_full lgamma nb t bi beta0 b1 = Some f1 ->
  lbeta_bin_full lgamma nb t bi beta0 b2 = Some f2 ->
  f1 - lbeta_bin t bi beta0 b1 = f2 - lbeta_bin t bi beta0 b2.
Proof.
  intros lg nb t bi beta0 b1 b2 f1 f2 H1 H2. destruct t; simpl in *; try discriminate;
    injection H1 as <-; injection H2 as <-; ring.
Qed.
Print Assumptions C30_full_minus_reduced_constant.

Example C30_example : exists f, lbeta_bin_full (fun _ => 0) 1 Gamma (mkBin 1 1 false 1) 1 2 = Some f.
Proof. simpl. eauto. Qed.
