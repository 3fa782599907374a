From Coq Require Import Reals List Bool Lra Lia Psatz.
From Verif Require Import RBase BBStat_Model BBStat_Spec BBStat_Proof.
Import ListNotations.
Open Scope R_scope.

(** entry of the code for a process with centre b0 *)
Definition fe (minstat : R) (e : proc * R) : fentry :=
  mkF (full_info minstat (raw (fst e))) (snd e) (p_yield (fst e)).

Lemma full_mask minstat p :
  bi_mask (full_info minstat (raw p)) = false <-> usable1 minstat p.
Proof.
  unfold full_info, mkinfo; simpl. rewrite betamask_spec.
  unfold usable1, usable, n_effective, mc_variance, mc_sumw; simpl.
  destruct (Req_EM_T (p_sumw2 p) 0) as [E|E].
  - split; intros (H&_); exfalso; lra.
  - split; intros (H1&H2&H3); repeat split; try lra.
    + intros Hm. specialize (H3 Hm). eapply Rle_trans; [exact H3|]. right. field. lra.
    + intros Hm. specialize (H3 Hm). eapply Rle_trans; [exact H3|]. right. field. lra.
Qed.

Lemma full_kstat minstat p : bi_mask (full_info minstat (raw p)) = false ->
  bi_kstat (full_info minstat (raw p)) = stat1 p.
Proof.
  unfold full_info, mkinfo; simpl. intros ->. unfold stat1. f_equal. ring.
Qed.

Lemma stat1_pos minstat p : 0 <= p_sumw2 p -> usable1 minstat p -> 0 < stat1 p.
Proof.
  intros H Hu. apply full_mask in Hu. apply betamask_spec in Hu. destruct Hu as (H1&H2&_). simpl in *.
  unfold stat1. apply Rdiv_lt_0_compat; [|lra].
  replace (p_sumw p ^ 2) with (Rsqr (p_sumw p)) by (unfold Rsqr; ring). apply Rsqr_pos_lt; auto.
Qed.

Section Full.
  Variables (minstat : R) (active : proc -> bool).
  Hypothesis active_ok : forall p, active p = true <-> usable1 minstat p.

  Lemma mask_active p : bi_mask (full_info minstat (raw p)) = negb (active p).
  Proof.
    destruct (active p) eqn:E; simpl.
    - apply full_mask. apply active_ok. auto.
    - destruct (bi_mask (full_info minstat (raw p))) eqn:E2; auto.
      apply full_mask in E2. apply active_ok in E2. congruence.
  Qed.

  (** candidate: gradient multiplier g *)
  Definition cand (t : bbtype) (g : R) (e : proc * R) : R :=
    match t with
    | NormalAdd => snd e + g * sqrt (p_sumw2 (fst e))
    | _ => if active (fst e) then snd e + g * p_yield (fst e) / stat1 (fst e) else snd e
    end.

  (** A and S such that the expectation at the candidate is A + g S *)
  Definition Aof (t : bbtype) (es : list (proc * R)) : R :=
    sumR (map (fun e => match t with
      | NormalAdd => p_yield (fst e) + sqrt (p_sumw2 (fst e)) * snd e
      | _ => snd e * p_yield (fst e) end) es).
  Definition Sof (t : bbtype) (es : list (proc * R)) : R :=
    sumR (map (fun e => match t with
      | NormalAdd => p_sumw2 (fst e)
      | _ => if active (fst e) then p_yield (fst e) * p_yield (fst e) / stat1 (fst e) else 0 end) es).

  Definition ok_entry (t : bbtype) (e : proc * R) : Prop :=
    0 <= p_sumw2 (fst e) /\ (t <> NormalAdd -> active (fst e) = false -> snd e = 1).

  Lemma expectation_cand t g es : Forall (ok_entry t) es ->
    expectation_full t active es (map (cand t g) es) = Aof t es + g * Sof t es.
  Proof.
    unfold Aof, Sof. induction 1 as [|[p b0] es [H1 H2] Hes IH]; simpl; [ring|].
    rewrite IH. simpl in H1, H2. unfold cand; simpl. destruct t.
    - destruct (active p) eqn:Ea.
      + assert (0 < stat1 p) by (apply (stat1_pos minstat); auto; apply active_ok; auto). field. lra.
      + rewrite (H2 ltac:(discriminate) eq_refl). ring.
    - destruct (active p) eqn:Ea.
      + assert (0 < stat1 p) by (apply (stat1_pos minstat); auto; apply active_ok; auto). field. lra.
      + rewrite (H2 ltac:(discriminate) eq_refl). ring.
    - assert (sqrt (p_sumw2 p) * sqrt (p_sumw2 p) = p_sumw2 p) by (apply sqrt_sqrt; auto).
      replace (p_yield p + sqrt (p_sumw2 p) * (b0 + g * sqrt (p_sumw2 p)))
        with (p_yield p + sqrt (p_sumw2 p) * b0 + g * (sqrt (p_sumw2 p) * sqrt (p_sumw2 p))) by ring.
      rewrite H. ring.
  Qed.

  Lemma constraint_cand t g es bs : Forall (ok_entry t) es -> length bs = length es ->
    constraint_full t active es bs - constraint_full t active es (map (cand t g) es)
    >= g * (expectation_full t active es bs - expectation_full t active es (map (cand t g) es)).
  Proof.
    intros H. revert bs. induction H as [|[p b0] es [H1 H2] Hes IH]; intros [|b bs] Hl; simpl in *; try lia.
    - lra.
    - specialize (IH bs ltac:(lia)). set (M := map (cand t g) es) in *. clearbody M. unfold cand; simpl.
      assert (forall k c d, 0 < k -> c = g * d / k ->
        gauss_constraint k b0 b - gauss_constraint k b0 (b0 + c) >= g * d * (b - (b0 + c))).
      { intros k c d Hk ->. pose proof (gauss_tangent k b0 b (b0 + g*d/k) ltac:(lra)).
        replace (k*(b0+g*d/k-b0)*(b-(b0+g*d/k))) with (g*d*(b-(b0+g*d/k))) in H by (field; lra). auto. }
      destruct t.
      + destruct (active p) eqn:Ea; [|lra].
        assert (0 < stat1 p) by (apply (stat1_pos minstat); auto; apply active_ok; auto).
        pose proof (H (stat1 p) (g*p_yield p/stat1 p) (p_yield p) H0 eq_refl) as H3.
        set (w := b0 + g*p_yield p/stat1 p) in *. clearbody w. lra.
      + destruct (active p) eqn:Ea; [|lra].
        assert (0 < stat1 p) by (apply (stat1_pos minstat); auto; apply active_ok; auto).
        pose proof (H (stat1 p) (g*p_yield p/stat1 p) (p_yield p) H0 eq_refl) as H3.
        set (w := b0 + g*p_yield p/stat1 p) in *. clearbody w. lra.
      + pose proof (H 1 (g*sqrt (p_sumw2 p)) (sqrt (p_sumw2 p)) ltac:(lra) ltac:(field)). nra.
  Qed.

  Lemma Sof_nonneg t es : Forall (ok_entry t) es -> 0 <= Sof t es.
  Proof.
    unfold Sof. induction 1 as [|[p b0] es [H1 H2] Hes IH]; simpl; [lra|]. simpl in *.
    assert (active p = true -> 0 <= p_yield p * p_yield p / stat1 p).
    { intros Ea. apply Rdiv_nonneg. { nra. } apply (stat1_pos minstat); auto; apply active_ok; auto. }
    destruct t; [destruct (active p) eqn:E| destruct (active p) eqn:E |]; try specialize (H eq_refl); lra.
  Qed.

  Lemma poisson_full_min t es nobs x :
    Forall (ok_entry t) es -> 0 <= nobs ->
    x = solve_quad_eq 1 (Sof t es - Aof t es) (- nobs * Sof t es) -> x <> 0 ->
    minimises (admissible_full t active Poisson es nobs)
              (objective_full t active Poisson es nobs 1)
              (map (cand t (nobs / x - 1)) es).
  Proof.
    intros Hes Hn Hx Hx0.
    pose proof (Sof_nonneg t es Hes) as HS.
    assert (Hle: 1*0*0 + (Sof t es - Aof t es)*0 + (- nobs * Sof t es) <= 0) by nra.
    destruct (root_ge 1 _ _ _ Rlt_0_1 Hle) as [Hr Hge]. rewrite <- Hx in Hr, Hge.
    assert (Hpos: 0 < x) by lra.
    assert (E: expectation_full t active es (map (cand t (nobs/x-1)) es) = x).
    { rewrite expectation_cand by auto.
      apply Rmult_eq_reg_r with x; [|lra].
      replace ((Aof t es + (nobs/x-1)*Sof t es)*x) with (Aof t es * x + (nobs - x)*Sof t es) by (field; lra).
      nra. }
    split.
    - split. { apply map_length. } simpl. rewrite E. split; lra.
    - intros bs [Hl Hd]. simpl in Hd. unfold objective_full, dev.
      pose proof (constraint_cand t (nobs/x-1) es bs Hes Hl) as Hc. rewrite E in *.
      pose proof (poisson_dev_tangent nobs _ x Hn Hd Hpos) as Hp. nra.
  Qed.

  Lemma chisq_full_min t es nobs var x :
    Forall (ok_entry t) es -> 0 < var ->
    x = Aof t es + (nobs - x) / var * Sof t es ->
    minimises (admissible_full t active Chisq es nobs)
              (objective_full t active Chisq es nobs var)
              (map (cand t ((nobs - x) / var)) es).
  Proof.
    intros Hes Hv Hx.
    assert (E: expectation_full t active es (map (cand t ((nobs-x)/var)) es) = x).
    { rewrite expectation_cand by auto. auto. }
    split. { split; simpl; auto. apply map_length. }
    intros bs [Hl _]. unfold objective_full, dev.
    pose proof (constraint_cand t ((nobs-x)/var) es bs Hes Hl) as Hc. rewrite E in *.
    pose proof (chisq_tangent var nobs (expectation_full t active es bs) x Hv) as Hp.
    assert ((x-nobs)/var = - ((nobs-x)/var)) by (field; lra). rewrite H in Hp. nra.
  Qed.

  Lemma n2kstat_spec e : n2kstat (fe minstat e) =
    if active (fst e) then p_yield (fst e) * p_yield (fst e) / stat1 (fst e) else 0.
  Proof.
    unfold n2kstat, fe; cbn [fe_info fe_n]. rewrite mask_active.
    destruct (active (fst e)) eqn:E; cbn [negb]; auto.
    rewrite full_kstat; auto. rewrite mask_active, E; auto.
  Qed.

  Lemma Sof_mult t es : t <> NormalAdd -> sumR (map n2kstat (map (fe minstat) es)) = Sof t es.
  Proof.
    intros Ht. unfold Sof. rewrite map_map. apply sumR_map_ext. intros e _. rewrite n2kstat_spec.
    destruct t; auto; congruence.
  Qed.

  Lemma cand_model_mult t g es : t <> NormalAdd ->
    map (fun e => if bi_mask (fe_info e) then fe_b0 e
                  else fe_b0 e + g * fe_n e / bi_kstat (fe_info e)) (map (fe minstat) es)
    = map (cand t g) es.
  Proof.
    intros Ht. rewrite map_map. apply map_ext. intros [p b0]. unfold cand, fe.
    cbn [fe_info fe_b0 fe_n fst snd]. rewrite mask_active.
    destruct (active p) eqn:E; cbn [negb].
    - rewrite full_kstat. 2:{ rewrite mask_active, E; auto. } destruct t; auto; congruence.
    - destruct t; auto; congruence.
  Qed.

  Theorem full_profile_minimises l t es nobs var bs :
    Forall (ok_entry t) es -> t <> Gamma ->
    match l with Poisson => 0 <= nobs | Chisq => 0 < var end ->
    profile_full l t (map (fe minstat) es) nobs var = Some bs ->
    minimises (admissible_full t active l es nobs) (objective_full t active l es nobs var) bs.
  Proof.
    intros Hes Ht Hdom Hp. pose proof (Sof_nonneg t es Hes) as HS.
    destruct l, t; try congruence; unfold profile_full in Hp.
    - rewrite (Sof_mult NormalMult) in Hp by discriminate.
      rewrite (map_map (fe minstat)) in Hp at 1.
      rewrite sumR_map_minus in Hp.
      rewrite <- (map_map (fe minstat) n2kstat) in Hp.
      rewrite (Sof_mult NormalMult) in Hp by discriminate.
      change (sumR (map (fun x => fe_b0 (fe minstat x) * fe_n (fe minstat x)) es))
        with (Aof NormalMult es) in Hp.
      unfold tfdiv in Hp.
      destruct (Reqb_spec (solve_quad_eq 1 (Sof NormalMult es - Aof NormalMult es) (- nobs * Sof NormalMult es)) 0);
        [discriminate|].
      injection Hp as <-. rewrite (cand_model_mult NormalMult) by discriminate.
      unfold objective_full, dev. apply (poisson_full_min NormalMult es nobs _ Hes Hdom eq_refl n).
    - rewrite !map_map in Hp. cbn [fe_info fe_b0 fe_n fe fst snd] in Hp.
      unfold fe, fsbeta, full_info, mkinfo, raw in Hp; cbn [fe_info fe_b0 fe_n fst snd bi_varbeta] in Hp.
      change (sumR (map (fun x : proc * R => p_sumw2 (fst x)) es)) with (Sof NormalAdd es) in Hp.
      assert (E: sumR (map (fun x : proc * R =>
         p_sumw2 (fst x) - sqrt (p_sumw2 (fst x)) * snd x - p_yield (fst x)) es)
         = Sof NormalAdd es - Aof NormalAdd es).
      { unfold Sof, Aof. rewrite <- sumR_map_minus. apply sumR_map_ext. intros; ring. }
      rewrite E in Hp. unfold tfdiv in Hp.
      destruct (Reqb_spec (solve_quad_eq 1 (Sof NormalAdd es - Aof NormalAdd es) (- nobs * Sof NormalAdd es)) 0);
        [discriminate|].
      injection Hp as <-. rewrite map_map. cbn [fe_info fe_b0 fe_n fst snd bi_varbeta].
      unfold objective_full, dev. apply (poisson_full_min NormalAdd es nobs _ Hes Hdom eq_refl n).
    - rewrite (Sof_mult NormalMult) in Hp by discriminate.
      set (x := (nobs / var * Sof NormalMult es + _) / _) in Hp.
      injection Hp as <-.
      assert (Hx: x = Aof NormalMult es + (nobs - x)/var * Sof NormalMult es).
      { assert (HA: Aof NormalMult es = sumR (map (fun e => fe_n e * fe_b0 e) (map (fe minstat) es))).
        { rewrite map_map. apply sumR_map_ext. intros e _. unfold fe; simpl. ring. }
        unfold x at 1 2. rewrite <- HA. field. split; [|lra].
        assert (0 < var + Sof NormalMult es) by lra. lra. }
      replace (map _ (map (fe minstat) es)) with (map (cand NormalMult ((nobs-x)/var)) es).
      + apply (chisq_full_min NormalMult es nobs var x Hes Hdom Hx).
      + rewrite <- (cand_model_mult NormalMult) by discriminate. apply map_ext_in. intros e _.
        destruct (bi_mask (fe_info e)); auto. unfold Rdiv. ring.
    - rewrite !map_map in Hp.
      unfold fe, fsbeta, full_info, mkinfo, raw in Hp; cbn [fe_info fe_b0 fe_n fst snd bi_varbeta] in Hp.
      change (sumR (map (fun x : proc * R => p_sumw2 (fst x)) es)) with (Sof NormalAdd es) in Hp.
      set (N := sumR (map (fun x : proc * R => p_yield (fst x)) es)) in Hp.
      set (B := sumR (map (fun x : proc * R => sqrt (p_sumw2 (fst x)) * snd x) es)) in Hp.
      set (nb := (B + _) / _) in Hp. injection Hp as <-.
      assert (HA: Aof NormalAdd es = N + B). { unfold Aof, N, B. apply sumR_map_plus. }
      set (x := N + nb).
      assert (Hx: x = Aof NormalAdd es + (nobs - x)/var * Sof NormalAdd es).
      { rewrite HA. unfold x, nb. field. split; lra. }
      replace (map _ es) with (map (cand NormalAdd ((nobs-x)/var)) es).
      + apply (chisq_full_min NormalAdd es nobs var x Hes Hdom Hx).
      + apply map_ext_in. intros e _. unfold cand. fold x. unfold Rdiv. ring.
  Qed.

  (** when the numerical expression is defined *)
  Lemma poisson_full_defined t es nobs :
    Forall (ok_entry t) es -> 0 <= nobs ->
    (0 < nobs * Sof t es \/ Sof t es < Aof t es) ->
    solve_quad_eq 1 (Sof t es - Aof t es) (- nobs * Sof t es) <> 0.
  Proof.
    intros Hes Hn Hc E. pose proof (Sof_nonneg t es Hes) as HS.
    assert (Hle: 1*0*0 + (Sof t es - Aof t es)*0 + (- nobs * Sof t es) <= 0) by nra.
    destruct (root_ge 1 _ _ _ Rlt_0_1 Hle) as [Hr Hge]. rewrite E in Hr.
    destruct Hc as [Hc|Hc]; [nra|].
    assert (Hle2: 1*(Aof t es - Sof t es)*(Aof t es - Sof t es) + (Sof t es - Aof t es)*(Aof t es - Sof t es)
        + (- nobs * Sof t es) <= 0) by nra.
    destruct (root_ge 1 _ _ _ Rlt_0_1 Hle2) as [_ H2]. rewrite E in H2. lra.
  Qed.

  Lemma poisson_full_undefined t es :
    Aof t es <= Sof t es ->
    solve_quad_eq 1 (Sof t es - Aof t es) (- 0 * Sof t es) = 0.
  Proof.
    intros H. unfold solve_quad_eq.
    replace ((Sof t es - Aof t es)*(Sof t es - Aof t es) - 4*1*(-0*Sof t es))
      with (Rsqr (Sof t es - Aof t es)) by (unfold Rsqr; ring).
    rewrite sqrt_Rsqr by lra. field.
  Qed.

  (** the loss computed by the code is the objective *)
  Lemma apply_full_expectation t es bs : Forall (ok_entry t) es -> length bs = length es ->
    sumR (apply_full t (map (fe minstat) es) bs) = expectation_full t active es bs.
  Proof.
    intros H. revert bs. induction H as [|[p b0] es [H1 H2] Hes IH]; intros [|b bs] Hl; simpl in *; try lia; auto.
    rewrite <- (IH bs ltac:(lia)). unfold apply_full; simpl. f_equal.
    change (betamask_of (p_sumw2 p) (p_sumw p) minstat) with (bi_mask (full_info minstat (raw p))).
    rewrite mask_active. destruct t; auto; destruct (active p); simpl; ring.
  Qed.

  Lemma lbeta_full_constraint t es bs : t <> Gamma -> Forall (ok_entry t) es -> length bs = length es ->
    sumR (map (fun eb : fentry * R => lbeta_bin t (fe_info (fst eb)) (fe_b0 (fst eb)) (snd eb))
              (combine (map (fe minstat) es) bs))
    = constraint_full t active es bs.
  Proof.
    intros Ht H. revert bs. induction H as [|[p b0] es [H1 H2] Hes IH]; intros [|b bs] Hl; simpl in *; try lia; auto.
    rewrite <- (IH bs ltac:(lia)). f_equal. destruct t; try congruence.
    - simpl. change (betamask_of (p_sumw2 p) (p_sumw p) minstat) with (bi_mask (full_info minstat (raw p))).
      rewrite mask_active. destruct (active p) eqn:Ea; simpl; auto.
      unfold stat1, gauss_constraint. field.
      assert (Hu := proj1 (active_ok p) Ea). apply full_mask in Hu. apply betamask_spec in Hu.
      destruct Hu as (Hu&_). auto.
    - simpl. unfold gauss_constraint. field.
  Qed.

  Theorem full_loss_is_objective l t es nobs var bs :
    Forall (ok_entry t) es -> t <> Gamma ->
    match l with Poisson => 0 <= nobs | Chisq => 0 < var end ->
    admissible_full t active l es nobs bs ->
    loss_full l t (map (fe minstat) es) nobs var bs = objective_full t active l es nobs var bs.
  Proof.
    intros Hes Ht Hdom [Hl Hd]. unfold loss_full, objective_full.
    rewrite apply_full_expectation, lbeta_full_constraint by auto. f_equal.
    apply ln_bin_dev; auto.
    - intros ->; auto.
    - destruct l; auto.
  Qed.
End Full.
