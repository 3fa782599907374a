(** C88: bin-by-bin nuisances with gamma constraints in full mode (Newton iteration). *)
From Coq Require Import Reals List Bool Lra Lia.
From Verif Require Import RBase BBStat_Model BBStat_Spec BBStat_Proof BBStatFull_Proof BBGamma_Model BBGamma_Spec BBGamma_Proof.
Import ListNotations.
Open Scope R_scope.

Section Props.
  Variables (minstat : R) (active : proc -> bool) (l : lik) (es : list (proc * R)) (nobs var T : R).
  Notation fes := (map (fe minstat) es).
  Notation betas u := (profile_gamma l fes nobs var T u).
  Notation f := (fnll l fes nobs var T).
  Lemma betas_eq u : betas u = betas_at minstat l nobs var (T + exp u) es.
  Proof. unfold profile_gamma, betas_at. rewrite map_map. reflexivity. Qed.
  Lemma above_T u : T < T + exp u. Proof. pose proof (exp_pos u). lra. Qed.

  (** the threshold is a number *)
  Theorem C88_threshold : gamma_inputs active minstat l es nobs var -> contributes active es -> exists T, threshold l fes nobs var = Some T.
  Proof. intros (A & L & E) S. apply (threshold_defined minstat active A l es nobs var L E S). Qed.
  (** every value of the iteration variable gives positive nuisances that the fit may take *)
  Theorem C88_positive u : gamma_inputs active minstat l es nobs var -> threshold l fes nobs var = Some T -> length (betas u) = length es /\ Forall (fun b => 0 < b) (betas u) /\ (contributes active es -> gamma_admissible active l es nobs (betas u)).
  Proof.
    intros (A & L & E) H. rewrite betas_eq. split; [unfold betas_at; apply map_length|]. split; [apply (betas_pos minstat active A l es nobs var T L E H); apply above_T|].
    intros S. apply (admissible_betas minstat active A l es nobs var T L E H S). apply above_T.
  Qed.
  (** the function iterated on is the joint objective at those nuisances *)
  Theorem C88_value u : gamma_inputs active minstat l es nobs var -> threshold l fes nobs var = Some T -> contributes active es -> f u = gamma_objective active l es nobs var (betas u).
  Proof. intros (A & L & E) H S. rewrite betas_eq. apply (value_betas minstat active A l es nobs var T L E H S). apply above_T. Qed.
  (** it falls to exactly one stationary point and grows after it *)
  Theorem C88_valley : gamma_inputs active minstat l es nobs var -> threshold l fes nobs var = Some T -> contributes active es -> (l = Poisson -> 0 < nobs) ->
    exists m, stationary f m /\ valley f m /\ forall u, stationary f u -> u = m.
  Proof. intros (A & L & E) H S D. apply (exists_u l fes nobs var (entries_ok minstat active A es E) L T H (some' minstat active A es S) D). Qed.
  (** and there the nuisances are the joint minimum, attained nowhere else *)
  Theorem C88_minimum u bs : gamma_inputs active minstat l es nobs var -> threshold l fes nobs var = Some T -> contributes active es -> (l = Poisson -> 0 < nobs) -> stationary f u -> gamma_admissible active l es nobs bs ->
    gamma_objective active l es nobs var (betas u) <= gamma_objective active l es nobs var bs /\
    (gamma_objective active l es nobs var bs <= gamma_objective active l es nobs var (betas u) -> agree active es bs (betas u)).
  Proof.
    intros (A & L & E) H S D St B. apply (stationary_iff l fes nobs var (entries_ok minstat active A es E) L T H (some' minstat active A es S) D) in St. rewrite betas_eq.
    apply (unique_minimum minstat active A l es nobs var T L E H S); auto; [apply above_T|]. rewrite St. reflexivity.
  Qed.
  (** without observed events every value of the variable gives the minimum *)
  Theorem C88_no_events u bs : l = Poisson -> nobs = 0 -> gamma_inputs active minstat l es nobs var -> threshold l fes nobs var = Some T -> contributes active es -> gamma_admissible active l es nobs bs ->
    gamma_objective active l es nobs var (betas u) <= gamma_objective active l es nobs var bs /\
    (gamma_objective active l es nobs var bs <= gamma_objective active l es nobs var (betas u) -> agree active es bs (betas u)).
  Proof.
    intros P Z (A & L & E) H S B. rewrite betas_eq. pose proof (nu_pos l fes nobs var (entries_ok minstat active A es E) L T H (some' minstat active A es S) _ (above_T u)) as NP.
    pose proof (T_nonneg l fes nobs var (entries_ok minstat active A es E) L T H P) as TP. pose proof (exp_pos u).
    apply (unique_minimum minstat active A l es nobs var T L E H S); auto; [apply above_T|]. unfold slope. rewrite P, Z in *. field. lra.
  Qed.
  (** a Newton step with the exact slope goes towards the stationary point, by at most one except for the last step, whatever the curvature, and rests there *)
  Theorem C88_step grad hess m u : gamma_inputs active minstat l es nobs var -> threshold l fes nobs var = Some T -> contributes active es -> (l = Poisson -> 0 < nobs) -> (forall v, derivable_pt_lim f v (grad v)) -> stationary f m ->
    (u < m -> u < newton_step grad hess u <= u + 1 /\ u < last_step grad hess u) /\ (m < u -> u - 1 <= newton_step grad hess u < u /\ last_step grad hess u < u) /\ newton_step grad hess m = m /\ last_step grad hess m = m.
  Proof. intros (A & L & E) H S D G St. apply (step_dir l fes nobs var (entries_ok minstat active A es E) L T H (some' minstat active A es S) D grad hess G m u St). Qed.
  (** a step that does not move has found the joint minimum *)
  Theorem C88_rest grad hess u bs : gamma_inputs active minstat l es nobs var -> threshold l fes nobs var = Some T -> contributes active es -> (l = Poisson -> 0 < nobs) -> (forall v, derivable_pt_lim f v (grad v)) -> newton_step grad hess u = u -> gamma_admissible active l es nobs bs ->
    gamma_objective active l es nobs var (betas u) <= gamma_objective active l es nobs var bs.
  Proof.
    intros I H S D G N B. destruct (C88_valley I H S D) as (m & Sm & _ & _). destruct (C88_step grad hess m u I H S D G Sm) as (L & R1 & _).
    destruct (Rtotal_order u m) as [Q|[->|Q]]; [specialize (L Q); lra|apply C88_minimum; auto|specialize (R1 Q); lra].
  Qed.
End Props.
(** bins that rest are left alone by the loop; no bin moves further than the number of rounds *)
Theorem C88_loop_rest fuel (bins : list bin) us : (forall (b : bin) u, In (b, u) (combine bins us) -> exists g h v, b = Some (g, h) /\ u = Some v /\ newton_step g h v = v) -> length bins = length us -> newton_loop fuel bins us = us.
Proof. exact (loop_fixed fuel bins us). Qed.
Theorem C88_loop_reach fuel (bins : list bin) us i v w : nth_error us i = Some (Some v) -> nth_error (newton_loop fuel bins us) i = Some (Some w) -> Rabs (w - v) <= INR fuel.
Proof. exact (loop_reach fuel bins us i v w). Qed.
(** one bin without a finite threshold stops the iteration of all bins after one round *)
Theorem C88_loop_undefined fuel (bins : list bin) us : In None bins -> length bins = length us -> newton_loop (S fuel) bins us = map bin_step (combine bins us).
Proof. exact (loop_nan fuel bins us). Qed.

(** ** concrete cases *)
Definition act (p : proc) : bool := negb (bi_mask (full_info 0 (raw p))).
Lemma act_ok p : act p = true <-> usable1 0 p. Proof. unfold act. rewrite negb_true_iff. apply full_mask. Qed.
Lemma mask0 sw sw2 y : sw2 <> 0 -> sw <> 0 -> bi_mask (full_info 0 (raw (mkProc sw sw2 y))) = false.
Proof. intros A B. apply full_mask. unfold usable1, usable, mc_variance, mc_sumw. cbn [sum_mcstat p_sumw p_sumw2]. destruct (Req_EM_T sw2 0); [contradiction|]. rewrite !Rplus_0_r. repeat split; auto. intros. lra. Qed.
Lemma mask1 sw y : bi_mask (full_info 0 (raw (mkProc sw 0 y))) = true.
Proof. destruct (bi_mask _) eqn:E; auto. apply full_mask in E. unfold usable1, usable, mc_variance in E. cbn [sum_mcstat p_sumw p_sumw2] in E. destruct (Req_EM_T 0 0) as [_|Z]; [|contradiction]. destruct E as (E & _). lra. Qed.
(** four effective events and four expected, two more without uncertainty, fifteen observed *)
Definition two : list (proc * R) := [(mkProc 4 4 4, 1); (mkProc 2 0 2, 1)].
Lemma two_inputs : gamma_inputs act 0 Poisson two 15 0.
Proof.
  split; [exact act_ok|]. split; [lra|]. unfold two. constructor; [|constructor; [|constructor]]; unfold gamma_entry; cbn [fst snd p_sumw2 p_yield]; repeat split; intros; try lra.
Qed.
Lemma k4 : bi_kstat (full_info 0 (raw (mkProc 4 4 4))) = 4.
Proof. rewrite full_kstat by (apply mask0; lra). unfold stat1. cbn. field. Qed.
Lemma two_threshold : threshold Poisson (map (fe 0) two) 15 0 = Some (15 / 2).
Proof.
  unfold threshold, f_min, two, f_thresh. cbn [map fold_right fe fe_info fe_n fst snd p_yield]. rewrite mask1. rewrite mask0 by lra. rewrite Reqb_false by lra. cbn [orb omin]. rewrite k4. unfold tfdiv. rewrite Reqb_false by lra. f_equal. field.
Qed.
Lemma two_betas u : exp u = 5 / 2 -> profile_gamma Poisson (map (fe 0) two) 15 0 (15 / 2) u = [2; 1].
Proof.
  intros E. unfold profile_gamma, two, gbeta, den, slope. cbn [map fe fe_info fe_n fe_b0 fst snd p_yield]. rewrite mask1. rewrite mask0 by lra. rewrite k4, E. f_equal. field.
Qed.
Lemma two_contributes : contributes act two.
Proof. exists (mkProc 4 4 4, 1). split; [left; auto|]. split; [unfold act; cbn [fst]; rewrite mask0 by lra; auto|cbn; lra]. Qed.
Example C88_ex_valley : exists m, stationary (fnll Poisson (map (fe 0) two) 15 0 (15 / 2)) m /\ valley (fnll Poisson (map (fe 0) two) 15 0 (15 / 2)) m /\ m = ln (5 / 2).
Proof.
  destruct (C88_valley 0 act Poisson two 15 0 (15 / 2) two_inputs two_threshold two_contributes ltac:(intros; lra)) as (m & S & V & U). exists m. split; [auto|]. split; [auto|]. symmetry. apply U.
  apply (stationary_iff Poisson (map (fe 0) two) 15 0 (entries_ok 0 act act_ok two (proj2 (proj2 two_inputs))) ltac:(cbn; lra) (15 / 2) two_threshold (some' 0 act act_ok two two_contributes) ltac:(intros; lra)).
  rewrite exp_ln by lra. unfold new_nexp, two, gbeta, den, slope. cbn [map fe fe_info fe_n fe_b0 fst snd p_yield sumR fold_right]. rewrite mask1. rewrite mask0 by lra. rewrite k4. field.
Qed.
Example C88_ex_minimum : forall b c, 0 < b -> gamma_objective act Poisson two 15 0 [2; 1] <= gamma_objective act Poisson two 15 0 [b; c].
Proof.
  intros b c B. destruct C88_ex_valley as (m & S & _ & ->). rewrite <- (two_betas (ln (5 / 2)) ltac:(apply exp_ln; lra)).
  apply (C88_minimum 0 act Poisson two 15 0 (15 / 2) (ln (5 / 2)) [b; c] two_inputs two_threshold two_contributes ltac:(intros; lra) S).
  assert (A0 : act (mkProc 4 4 4) = true) by (unfold act; rewrite mask0 by lra; auto). assert (A1 : act (mkProc 2 0 2) = false) by (unfold act; rewrite mask1; auto).
  unfold gamma_admissible, two. cbn [gamma_doms expectation_full]. rewrite A0, A1. unfold dev_dom, gamma_dom, poisson_dom. cbn [p_yield]. repeat split; intros; try discriminate; lra.
Qed.

(** ** what does not hold *)
(** chi-square fit: a bin in which no process with uncertainty is expected has no finite threshold *)
Theorem C88_no_threshold_refuted : exists es nobs var, gamma_inputs act 0 Chisq es nobs var /\ threshold Chisq (map (fe 0) es) nobs var = None.
Proof.
  exists [(mkProc 2 0 2, 1); (mkProc 4 4 0, 1)], 15, 15. split.
  - split; [exact act_ok|]. split; [lra|]. constructor; [|constructor; [|constructor]]; unfold gamma_entry; cbn [fst snd p_sumw2 p_yield]; repeat split; intros; try lra.
  - unfold threshold, f_min, f_thresh. cbn [map fold_right fe fe_info fe_n fst snd p_yield]. rewrite mask1. rewrite mask0 by lra. destruct (Reqb_spec 0 0); [reflexivity|contradiction].
Qed.
(** so such a bin anywhere ends the iteration of every other bin after the first round: here the other bin still has to go to 5 *)
Theorem C88_all_bins_converge_refuted : exists (bins : list bin) us i g h, nth_error bins i = Some (Some (g, h)) /\ (forall v, derivable_pt_lim (fun x => (x - 5) * (x - 5)) v (g v)) /\ (forall v, derivable_pt_lim g v (h v)) /\
  exists w, nth_error (newton_loop 50 bins us) i = Some (Some w) /\ g w <> 0 /\ exists w', nth_error (newton_loop 50 [Some (g, h)] [Some 0]) 0 = Some (Some w') /\ g w' = 0.
Proof.
  set (g := fun x => 2 * (x - 5)). set (h := fun _ : R => 2). exists [Some (g, h); None], [Some 0; Some 0], 0%nat, g, h. split; [reflexivity|].
  assert (D1 : forall v, derivable_pt_lim (fun x => x - 5) v 1). { intros v. apply (dl_val _ _ (1 - 0)); [ring|]. apply (derivable_pt_lim_minus id (fun _ => 5)); [apply derivable_pt_lim_id|apply derivable_pt_lim_const]. }
  split. { intros v. apply (dl_val _ _ (1 * (v - 5) + (v - 5) * 1)); [unfold g; ring|]. apply (derivable_pt_lim_mult (fun x => x - 5) (fun x => x - 5)); auto. }
  split. { intros v. apply (dl_val _ _ (2 * 1)); [unfold h; ring|]. apply (derivable_pt_lim_scal (fun x => x - 5)). auto. }
  assert (ST : forall v, v <= 4 -> newton_step g h v = v + 1).
  { intros v V. unfold newton_step, safe_hess, h, g. rewrite (Rmax_left 2) by lra. replace (2 * (v - 5) / 2) with (v - 5) by field. unfold clip. rewrite (Rmin_right 1) by lra. rewrite Rmax_left by lra. lra. }
  assert (S5 : newton_step g h 5 = 5). { unfold newton_step, safe_hess, h, g. rewrite (Rmax_left 2) by lra. replace (2 * (5 - 5) / 2) with 0 by field. unfold clip. rewrite (Rmin_right 1) by lra. rewrite Rmax_right by lra. lra. }
  exists 1. split; [|split; [unfold g; lra|]].
  - rewrite (C88_loop_undefined 49); [|cbn; auto|reflexivity]. cbn [combine map bin_step nth_error]. rewrite ST by lra. do 2 f_equal. lra.
  - exists 5. split; [|unfold g; lra].
    assert (ED : forall v, v <= 4 -> Rltb (1 / 10000000000) (edm g h v) = true).
    { intros v V. apply Rltb_true. unfold edm, safe_hess, h, g. rewrite (Rmax_left 2) by lra. assert (1 <= (v - 5) * (v - 5)) by nra. replace (1 / 2 * (2 * (v - 5) * (2 * (v - 5))) / 2) with ((v - 5) * (v - 5)) by field. lra. }
    assert (GO : forall n v, v <= 4 -> newton_loop (S n) [Some (g, h)] [Some v] = newton_loop n [Some (g, h)] [Some (v + 1)]).
    { intros n v V. cbn [newton_loop combine map bin_step bin_edm forallb existsb defined above]; cbv zeta. rewrite ED, ST by auto. reflexivity. }
    do 5 (rewrite GO by lra). replace (0 + 1 + 1 + 1 + 1 + 1) with 5 by ring. rewrite C88_loop_rest; [reflexivity| |reflexivity].
    intros b u [Q|[]]. injection Q as <- <-. exists g, h, 5. auto.
Qed.
(** the comment in the code promises positive nuisances for every process; a process with a negative yield breaks this at the starting point *)
Theorem C88_negative_yield_refuted : exists p T, act p = true /\ 0 <= p_sumw2 p /\ p_yield p < 0 /\ threshold Poisson [fe 0 (p, 1)] 10 0 = Some T /\ exists b, profile_gamma Poisson [fe 0 (p, 1)] 10 0 T 0 = [b] /\ b < 0.
Proof.
  exists (mkProc 4 4 (-1)), (- (10 / 3)). assert (K : bi_kstat (full_info 0 (raw (mkProc 4 4 (-1)))) = 4). { rewrite full_kstat by (apply mask0; lra). unfold stat1. cbn. field. }
  split; [unfold act; rewrite mask0 by lra; auto|]. split; [cbn; lra|]. split; [cbn; lra|]. split.
  - unfold threshold, f_min, f_thresh. cbn [map fold_right fe fe_info fe_n fst snd p_yield]. rewrite mask0 by lra. rewrite Reqb_false by lra. cbn [orb omin]. rewrite K. unfold tfdiv. rewrite Reqb_false by lra. f_equal. field.
  - exists (4 / (4 + (1 - 10 / (- (10 / 3) + 1)) * -1)). split.
    + unfold profile_gamma, gbeta, den, slope. cbn [map fe fe_info fe_n fe_b0 fst snd p_yield]. rewrite mask0 by lra. rewrite K, exp_0. f_equal. field.
    + replace (4 + (1 - 10 / (- (10 / 3) + 1)) * -1) with (- (9 / 7)) by field. assert (0 < 4 / (9 / 7)) by (apply Rdiv_lt_0_compat; lra). replace (4 / - (9 / 7)) with (- (4 / (9 / 7))) by field. lra.
Qed.
(** fifty rounds do not reach a stationary point that is further than fifty away: 2 exp 60 events, expected and observed *)
Theorem C88_fifty_rounds_refuted : exists es nobs T, gamma_inputs act 0 Poisson es nobs 0 /\ contributes act es /\ threshold Poisson (map (fe 0) es) nobs 0 = Some T /\
  forall grad hess, (forall v, derivable_pt_lim (fnll Poisson (map (fe 0) es) nobs 0 T) v (grad v)) -> forall w, nth_error (newton_loop 50 [Some (grad, hess)] [Some 0]) 0 = Some (Some w) -> ~ stationary (fnll Poisson (map (fe 0) es) nobs 0 T) w.
Proof.
  set (N := 2 * exp 60). assert (NP : 0 < N) by (pose proof (exp_pos 60); unfold N; lra). set (p := mkProc N N N). exists [(p, 1)], N, (N / 2).
  assert (M : bi_mask (full_info 0 (raw p)) = false) by (apply mask0; lra). assert (K : bi_kstat (full_info 0 (raw p)) = N) by (rewrite full_kstat by auto; unfold stat1; cbn; field; lra).
  assert (I : gamma_inputs act 0 Poisson [(p, 1)] N 0) by (split; [exact act_ok|]; split; [lra|]; constructor; [|constructor]; unfold gamma_entry; cbn [fst snd p p_sumw2 p_yield]; repeat split; intros; lra).
  assert (C : contributes act [(p, 1)]) by (exists (p, 1); split; [left; auto|]; split; [unfold act; cbn [fst]; rewrite M; auto|cbn; lra]).
  assert (TH : threshold Poisson (map (fe 0) [(p, 1)]) N 0 = Some (N / 2)).
  { unfold threshold, f_min, f_thresh. cbn [map fold_right fe fe_info fe_n fst snd]. rewrite M. change (p_yield p) with N. rewrite Reqb_false by lra. cbn [orb omin]. rewrite K. unfold tfdiv. replace (1 + N / N) with 2 by (field; lra). rewrite Reqb_false by lra. reflexivity. }
  split; [auto|]. split; [auto|]. split; [auto|]. intros grad hess G w W S.
  destruct (C88_valley 0 act Poisson [(p, 1)] N 0 (N / 2) I TH C ltac:(auto)) as (m & _ & _ & U).
  assert (S60 : stationary (fnll Poisson (map (fe 0) [(p, 1)]) N 0 (N / 2)) 60).
  { apply (stationary_iff Poisson (map (fe 0) [(p, 1)]) N 0 (entries_ok 0 act act_ok [(p, 1)] (proj2 (proj2 I))) ltac:(cbn; lra) (N / 2) TH (some' 0 act act_ok [(p, 1)] C) ltac:(auto)).
    replace (N / 2 + exp 60) with N by (unfold N; field). unfold new_nexp, gbeta, den, slope. cbn [map fe fe_info fe_n fe_b0 fst snd sumR fold_right]. rewrite M, K. change (p_yield p) with N. field. lra. }
  assert (w = 60) by (rewrite (U w S), (U 60 S60); auto). subst w.
  pose proof (C88_loop_reach 50 _ [Some 0] 0 0 60 eq_refl W) as B. replace (INR 50) with 50 in B by (cbn; lra). unfold Rabs in B. destruct (Rcase_abs _); lra.
Qed.

Print Assumptions C88_minimum.
Print Assumptions C88_valley.
Print Assumptions C88_step.
Print Assumptions C88_all_bins_converge_refuted.
