(** Proofs about the diagnostics of the bin-by-bin nuisances in full mode. *)
From Coq Require Import List Reals Bool Arith Lia Lra.
From Verif Require Import PyList RBase BBStat_Model BBStat_Spec BBStat_Proof BBStatFull_Proof Mat_Model Mat_Proof Linear_Model Linear_Proof Bdiag_Model Bdiag_Proof
  Bfull_Model Bfull_Spec.
Import ListNotations.
Local Open Scope R_scope.

(** *** the derivatives of a bin *)
Lemma setn_length i v l : List.length (setn i v l) = List.length l.
Proof. revert i. induction l as [|x l IH]; intros [|i]; simpl; auto. Qed.
Lemma sumR_cons x r : sumR (x :: r) = x + sumR r.
Proof. reflexivity. Qed.
Lemma nexp_setn t : forall es bs i e v, nth_error es i = Some e -> List.length bs = List.length es ->
  sumR (apply_full t es (setn i v bs)) = sumR (apply_full t es bs) + fslope t e * (v - nth i bs 0).
Proof.
  induction es as [|x es IH]; intros bs i e v E L; [destruct i; discriminate|]. destruct bs as [|b bs]; [discriminate|]. destruct i as [|i].
  - injection E as ->. unfold apply_full, fslope. cbn [setn combine map nth]. rewrite !sumR_cons. destruct t; try destruct (bi_mask (fe_info e)); ring.
  - cbn [setn nth]. assert (X := IH bs i e v E (f_equal pred L)). unfold apply_full in *. cbn [combine map]. rewrite !sumR_cons, X. ring.
Qed.
Lemma con_setn t : forall es bs i e v, nth_error es i = Some e -> List.length bs = List.length es ->
  sumR (map (fun eb : fentry * R => lbeta_bin t (fe_info (fst eb)) (fe_b0 (fst eb)) (snd eb)) (combine es (setn i v bs))) =
  (sumR (map (fun eb : fentry * R => lbeta_bin t (fe_info (fst eb)) (fe_b0 (fst eb)) (snd eb)) (combine es bs)) - lbeta_bin t (fe_info e) (fe_b0 e) (nth i bs 0))
  + lbeta_bin t (fe_info e) (fe_b0 e) v.
Proof.
  induction es as [|x es IH]; intros bs i e v E L; [destruct i; discriminate|]. destruct bs as [|b bs]; [discriminate|]. destruct i as [|i].
  - injection E as ->. cbn [setn combine map nth]. rewrite !sumR_cons. cbn [fst snd]. ring.
  - cbn [setn nth combine map]. rewrite !sumR_cons, (IH bs i e v E (f_equal pred L)). ring.
Qed.
Lemma d_con t e v : t <> Gamma -> derivable_pt_lim (lbeta_bin t (fe_info e) (fe_b0 e)) v (fdcon t e v).
Proof.
  intros NG. apply (dlim_eq _ _ (dconstraint t (mkLB (fe_info e) [] None (fe_b0 e)) v)).
  - unfold dconstraint, fdcon. cbn [lb_info lb_beta0]. destruct t; [congruence| |]; try destruct (bi_mask (fe_info e)); ring.
  - apply (d_lbeta t (mkLB (fe_info e) [] None (fe_b0 e)) v). intros E. congruence.
Qed.
Lemma setn_same : forall bs i, setn i (nth i bs 0) bs = bs.
Proof. induction bs as [|b bs IH]; intros [|i]; cbn [setn nth]; auto. rewrite IH. auto. Qed.
Theorem full_gradient l t es nobs var bs i e : t <> Gamma -> nth_error es i = Some e -> List.length bs = List.length es ->
  (l = Poisson -> 0 < sumR (apply_full t es bs)) -> (l = Chisq -> var <> 0) ->
  derivable_pt_lim (fun v => loss_full l t es nobs var (setn i v bs)) (nth i bs 0)
    (fslope t e * dln l nobs var (sumR (apply_full t es bs)) + fdcon t e (nth i bs 0)).
Proof.
  intros NG E L P V. unfold loss_full. set (N := sumR (apply_full t es bs)) in *. set (s := fslope t e). set (b := nth i bs 0).
  set (C := sumR (map (fun eb : fentry * R => lbeta_bin t (fe_info (fst eb)) (fe_b0 (fst eb)) (snd eb)) (combine es bs)) - lbeta_bin t (fe_info e) (fe_b0 e) b).
  apply (dlim_ext (fun v => ln_bin l nobs var ((N - s * b) + s * v) + (C + lbeta_bin t (fe_info e) (fe_b0 e) v))).
  { intros v. rewrite (nexp_setn t es bs i e v E L), (con_setn t es bs i e v E L). fold N s b. unfold C. f_equal. f_equal. ring. }
  assert (EB : (N - s * b) + s * b = N) by ring.
  apply (derivable_pt_lim_plus (fun v => ln_bin l nobs var ((N - s * b) + s * v))).
  - apply (dlim_eq _ _ (s * dln l nobs var ((N - s * b) + s * b))); [rewrite EB; auto|].
    apply (d_ln l nobs var (fun v => (N - s * b) + s * v)); [rewrite EB; auto|auto|apply dlim_affine].
  - apply (dlim_eq _ _ (0 + fdcon t e b)); [ring|]. apply (derivable_pt_lim_plus (fun _ => C)); [apply derivable_pt_lim_const|apply d_con; auto].
Qed.
Lemma nth_setn : forall bs i j v, (j < List.length bs)%nat -> nth i (setn j v bs) 0 = if Nat.eqb i j then v else nth i bs 0.
Proof.
  induction bs as [|b bs IH]; intros i j v H; [cbn in H; lia|]. destruct j as [|j], i as [|i]; cbn [setn nth Nat.eqb]; auto. apply IH. cbn in H; lia.
Qed.
Theorem full_hessian l t es nobs var bs i j e f : t <> Gamma -> nth_error es i = Some e -> nth_error es j = Some f -> List.length bs = List.length es ->
  (l = Poisson -> 0 < sumR (apply_full t es bs)) -> (l = Chisq -> var <> 0) ->
  derivable_pt_lim (fun v => fslope t e * dln l nobs var (sumR (apply_full t es (setn j v bs))) + fdcon t e (nth i (setn j v bs) 0)) (nth j bs 0)
    (fslope t e * fslope t f * ddln l nobs var (sumR (apply_full t es bs)) + (if Nat.eqb i j then fddcon t e else 0)).
Proof.
  intros NG E F L P V. set (N := sumR (apply_full t es bs)) in *. set (s := fslope t f). set (b := nth j bs 0).
  assert (JL : (j < List.length bs)%nat) by (rewrite L; apply nth_error_Some; congruence).
  apply (dlim_ext (fun v => fslope t e * dln l nobs var ((N - s * b) + s * v) + fdcon t e (if Nat.eqb i j then v else nth i bs 0))).
  { intros v. rewrite (nexp_setn t es bs j f v F L), nth_setn by auto. fold N s b. do 3 f_equal. ring. }
  assert (EB : (N - s * b) + s * b = N) by ring.
  apply (derivable_pt_lim_plus (fun v => fslope t e * dln l nobs var ((N - s * b) + s * v))).
  - apply (dlim_eq _ _ (fslope t e * (s * ddln l nobs var ((N - s * b) + s * b)))); [rewrite EB; ring|].
    apply (derivable_pt_lim_scal (fun v => dln l nobs var ((N - s * b) + s * v))).
    apply (dd_ln l nobs var (fun v => (N - s * b) + s * v)); [rewrite EB; auto|auto|apply dlim_affine].
  - destruct (Nat.eqb i j); [|apply derivable_pt_lim_const]. unfold fdcon, fddcon. destruct t; try congruence.
    + destruct (bi_mask (fe_info e)); [apply derivable_pt_lim_const|].
      apply (dlim_ext (fun v => (- fe_b0 e * bi_kstat (fe_info e)) + bi_kstat (fe_info e) * v)); [intros; ring|apply dlim_affine].
    + apply (dlim_ext (fun v => (- fe_b0 e) + 1 * v)); [intros; ring|apply dlim_affine].
Qed.

(** *** the profile of a bin *)
Section Full.
  Variables (minstat : R) (active : proc -> bool).
  Hypothesis active_ok : forall p, active p = true <-> usable1 minstat p.
  Definition to_fb (s : sfull) : fbin := mkFB (map (fe minstat) (sf_es s)) (sf_obs s).

  Lemma poisson_at t es nobs x : Forall (ok_entry active t) es -> 0 <= nobs ->
    x = solve_quad_eq 1 (Sof active t es - Aof t es) (- nobs * Sof active t es) -> x <> 0 ->
    0 < x /\ expectation_full t active es (map (cand active t (nobs / x - 1)) es) = x.
  Proof using active_ok.
    intros Hes Hn Hx Hx0. pose proof (Sof_nonneg minstat active active_ok t es Hes) as HS.
    assert (Hle: 1*0*0 + (Sof active t es - Aof t es)*0 + (- nobs * Sof active t es) <= 0) by nra.
    destruct (root_ge 1 _ _ _ Rlt_0_1 Hle) as [Hr Hge]. rewrite <- Hx in Hr, Hge. assert (Hpos: 0 < x) by lra. split; auto.
    rewrite (expectation_cand minstat active active_ok) by auto. apply Rmult_eq_reg_r with x; [|lra].
    replace ((Aof t es + (nobs/x-1)*Sof active t es)*x) with (Aof t es * x + (nobs - x)*Sof active t es) by (field; lra). nra.
  Qed.
  Theorem profile_cand l t es nobs var bs : Forall (ok_entry active t) es -> t <> Gamma -> match l with Poisson => 0 <= nobs | Chisq => 0 < var end ->
    profile_full l t (map (fe minstat) es) nobs var = Some bs ->
    let x := expectation_full t active es bs in bs = map (cand active t (- dln l nobs var x)) es /\ (l = Poisson -> 0 < x).
  Proof using active_ok.
    intros Hes Ht Hdom Hp. pose proof (Sof_nonneg minstat active active_ok t es Hes) as HS.
    assert (FIN : forall g, bs = map (cand active t g) es -> forall x, expectation_full t active es (map (cand active t g) es) = x ->
      g = - dln l nobs var x -> (l = Poisson -> 0 < x) -> let y := expectation_full t active es bs in bs = map (cand active t (- dln l nobs var y)) es /\ (l = Poisson -> 0 < y)).
    { intros g B x X G Q. cbv zeta. rewrite B, X, <- G. auto. }
    assert (PG : forall x, 0 < x -> nobs / x - 1 = - dln Poisson nobs var x).
    { intros x X. unfold dln. destruct (Reqb_spec nobs 0) as [->|]; [field; lra|lra]. }
    assert (CG : forall x, (nobs - x) / var = - dln Chisq nobs var x) by (intros x; unfold dln, Rdiv; ring).
    destruct l, t; try congruence; unfold profile_full in Hp.
    - rewrite (Sof_mult minstat active active_ok NormalMult) in Hp by discriminate. rewrite (map_map (fe minstat)) in Hp at 1. rewrite sumR_map_minus in Hp.
      rewrite <- (map_map (fe minstat) n2kstat) in Hp. rewrite (Sof_mult minstat active active_ok NormalMult) in Hp by discriminate.
      change (sumR (map (fun x => fe_b0 (fe minstat x) * fe_n (fe minstat x)) es)) with (Aof NormalMult es) in Hp. unfold tfdiv in Hp.
      destruct (Reqb_spec (solve_quad_eq 1 (Sof active NormalMult es - Aof NormalMult es) (- nobs * Sof active NormalMult es)) 0); [discriminate|].
      injection Hp as <-. destruct (poisson_at NormalMult es nobs _ Hes Hdom eq_refl n) as (XP & XE).
      eapply FIN; [apply (cand_model_mult minstat active active_ok NormalMult); discriminate|exact XE|auto|auto].
    - rewrite !map_map in Hp. cbn [fe_info fe_b0 fe_n fe fst snd] in Hp. unfold fe, fsbeta, full_info, mkinfo, raw in Hp; cbn [fe_info fe_b0 fe_n fst snd bi_varbeta] in Hp.
      change (sumR (map (fun x : proc * R => p_sumw2 (fst x)) es)) with (Sof active NormalAdd es) in Hp.
      assert (E: sumR (map (fun x : proc * R => p_sumw2 (fst x) - sqrt (p_sumw2 (fst x)) * snd x - p_yield (fst x)) es) = Sof active NormalAdd es - Aof NormalAdd es).
      { unfold Sof, Aof. rewrite <- sumR_map_minus. apply sumR_map_ext. intros; ring. }
      rewrite E in Hp. unfold tfdiv in Hp.
      destruct (Reqb_spec (solve_quad_eq 1 (Sof active NormalAdd es - Aof NormalAdd es) (- nobs * Sof active NormalAdd es)) 0); [discriminate|].
      injection Hp as <-. destruct (poisson_at NormalAdd es nobs _ Hes Hdom eq_refl n) as (XP & XE).
      eapply FIN; [rewrite map_map; reflexivity|exact XE|auto|auto].
    - rewrite (Sof_mult minstat active active_ok NormalMult) in Hp by discriminate.
      set (x := (nobs / var * Sof active NormalMult es + _) / _) in Hp. injection Hp as <-.
      assert (Hx: x = Aof NormalMult es + (nobs - x)/var * Sof active NormalMult es).
      { assert (HA: Aof NormalMult es = sumR (map (fun e => fe_n e * fe_b0 e) (map (fe minstat) es))).
        { rewrite map_map. apply sumR_map_ext. intros e _. unfold fe; simpl. ring. }
        unfold x at 1 2. rewrite <- HA. field. split; [|lra]. assert (0 < var + Sof active NormalMult es) by lra. lra. }
      eapply FIN with (g := (nobs - x) / var) (x := x); [|rewrite (expectation_cand minstat active active_ok) by auto; auto|auto|discriminate].
      rewrite <- (cand_model_mult minstat active active_ok NormalMult) by discriminate. apply map_ext_in. intros e _. destruct (bi_mask (fe_info e)); auto. unfold Rdiv. ring.
    - rewrite !map_map in Hp. unfold fe, fsbeta, full_info, mkinfo, raw in Hp; cbn [fe_info fe_b0 fe_n fst snd bi_varbeta] in Hp.
      change (sumR (map (fun x : proc * R => p_sumw2 (fst x)) es)) with (Sof active NormalAdd es) in Hp.
      set (N := sumR (map (fun x : proc * R => p_yield (fst x)) es)) in Hp. set (B := sumR (map (fun x : proc * R => sqrt (p_sumw2 (fst x)) * snd x) es)) in Hp.
      set (nb := (B + _) / _) in Hp. injection Hp as <-.
      assert (HA: Aof NormalAdd es = N + B). { unfold Aof, N, B. apply sumR_map_plus. }
      set (x := N + nb). assert (Hx: x = Aof NormalAdd es + (nobs - x)/var * Sof active NormalAdd es). { rewrite HA. unfold x, nb. field. split; lra. }
      eapply FIN with (g := (nobs - x) / var) (x := x); [|rewrite (expectation_cand minstat active active_ok) by auto; auto|auto|discriminate].
      apply map_ext_in. intros e _. unfold cand. fold x. unfold Rdiv. ring.
  Qed.
  (** gradient of the candidate *)
  Lemma cand_grad t g e : t <> Gamma -> ok_entry active t e -> fslope t (fe minstat e) * - g + fdcon t (fe minstat e) (cand active t g e) = 0.
  Proof using active_ok.
    destruct e as [p b0]. intros NG [H1 H2]. cbn [fst snd] in *. unfold fslope, fdcon, cand, fe. cbn [fe_info fe_b0 fe_n fst snd]. destruct t; [congruence| |].
    - rewrite (mask_active minstat active active_ok). destruct (active p) eqn:A; cbn [negb]; [|ring].
      rewrite full_kstat by (rewrite (mask_active minstat active active_ok), A; auto).
      assert (0 < stat1 p) by (apply (stat1_pos minstat); auto; apply active_ok; auto). field. lra.
    - unfold fsbeta, full_info, mkinfo, raw. cbn [fe_info bi_varbeta fst snd]. ring.
  Qed.
  Theorem bin_stationary l t s bs : t <> Gamma -> sane_full active l t s -> fb_profile l t (to_fb s) = Some bs ->
    List.length bs = List.length (sf_es s) /\ (l = Poisson -> sf_obs s <> None -> 0 < sumR (apply_full t (fb_es (to_fb s)) bs)) /\
    forall e b, In (e, b) (combine (fb_es (to_fb s)) bs) -> fslope t e * bin_d l t (to_fb s, bs) + fdcon t e b = 0.
  Proof using active_ok.
    intros NG (OK & DO) P. unfold fb_profile, bin_d in *. cbn [to_fb fb_es fb_obs fst snd] in *. destruct (sf_obs s) as [(nobs & var)|].
    - destruct (profile_cand l t (sf_es s) nobs var bs OK NG DO P) as (B & X). cbv zeta in B, X.
      assert (L : List.length bs = List.length (sf_es s)) by (rewrite B; apply map_length). split; auto.
      assert (AE := apply_full_expectation minstat active active_ok t (sf_es s) bs OK L). split; [intros E _; rewrite AE; auto|].
      rewrite AE. set (g := - dln l nobs var (expectation_full t active (sf_es s) bs)) in *.
      replace (dln l nobs var (expectation_full t active (sf_es s) bs)) with (- g) by (unfold g; ring). clearbody g. clear AE X L P. subst bs.
      intros e b I. induction OK as [|x es K OK IH]; [contradiction|]. destruct I as [I|I]; auto. injection I as <- <-. apply cand_grad; auto.
    - injection P as <-. rewrite !map_length. split; auto. split; [intros _ H; congruence|]. clear OK.
      intros e b I. replace (fslope t e * 0) with 0 by ring. rewrite Rplus_0_l. induction (sf_es s) as [|x es IH]; [contradiction|]. destruct I as [I|I]; auto.
      assert (E1 := f_equal fst I). assert (E2 := f_equal snd I). cbn [fst snd] in E1, E2. rewrite E1 in E2. subst b. unfold fdcon.
      destruct t; try congruence; [destruct (bi_mask _); auto; ring|ring].
  Qed.
End Full.

(** *** block-diagonal curvature *)
Lemma block_sym n (bin : nat -> nat) (e k D : nat -> R) :
  sym n (fun i j => (if Nat.eqb (bin i) (bin j) then e i * e j * D (bin i) else 0) + (if Nat.eqb i j then k i else 0)).
Proof.
  intros i j _ _. rewrite (Nat.eqb_sym (bin j)), (Nat.eqb_sym j). destruct (Nat.eqb_spec (bin i) (bin j)) as [->|]; destruct (Nat.eqb_spec i j) as [->|]; ring.
Qed.
Lemma block_quad n nb (bin : nat -> nat) (e k D x : nat -> R) : (forall i, (i < n)%nat -> (bin i < nb)%nat) ->
  quad n (fun i j => (if Nat.eqb (bin i) (bin j) then e i * e j * D (bin i) else 0) + (if Nat.eqb i j then k i else 0)) x =
  sm nb (fun a => D a * (sm n (fun i => delta (bin i) a * (e i * x i)) * sm n (fun j => delta (bin j) a * (e j * x j)))) + sm n (fun i => k i * (x i * x i)).
Proof.
  intros B. unfold quad, vdot, mv.
  rewrite (sm_ext n _ (fun i => sm n (fun j => sm nb (fun a => D a * (delta (bin i) a * (e i * x i)) * (delta (bin j) a * (e j * x j)))) + k i * (x i * x i))).
  - rewrite sm_plus. f_equal. rewrite (sm_ext n _ (fun i => sm nb (fun a => sm n (fun j => D a * (delta (bin i) a * (e i * x i)) * (delta (bin j) a * (e j * x j)))))) by (intros; apply sm_swap).
    rewrite sm_swap. apply sm_ext. intros a _.
    rewrite (sm_ext n _ (fun i => D a * (delta (bin i) a * (e i * x i)) * sm n (fun j => delta (bin j) a * (e j * x j)))) by (intros; apply sm_scal).
    rewrite sm_scalr, (sm_scal n (D a)). ring.
  - intros i Hi. rewrite (sm_ext n (fun j => ((if Nat.eqb (bin i) (bin j) then e i * e j * D (bin i) else 0) + (if Nat.eqb i j then k i else 0)) * x j)
      (fun j => (if Nat.eqb (bin i) (bin j) then e i * e j * D (bin i) * x j else 0) + delta i j * (k i * x j))).
    2:{ intros j _. unfold delta. destruct (Nat.eqb (bin i) (bin j)), (Nat.eqb i j); ring. }
    rewrite sm_plus, sm_delta by auto. rewrite Rmult_plus_distr_l. f_equal; [|ring]. rewrite <- sm_scal. apply sm_ext. intros j Hj.
    rewrite (sm_ext nb _ (fun a => delta (bin i) a * (D a * (e i * x i) * (delta (bin j) a * (e j * x j))))) by (intros; ring).
    rewrite sm_delta by auto. unfold delta. rewrite (Nat.eqb_sym (bin j)). destruct (Nat.eqb (bin i) (bin j)); ring.
Qed.
Lemma block_posdef n nb (bin : nat -> nat) (e k D : nat -> R) : (forall i, (i < n)%nat -> (bin i < nb)%nat) -> (forall a, (a < nb)%nat -> 0 <= D a) ->
  (forall i, (i < n)%nat -> 0 < k i) ->
  posdef n (fun i j => (if Nat.eqb (bin i) (bin j) then e i * e j * D (bin i) else 0) + (if Nat.eqb i j then k i else 0)).
Proof.
  intros B P K x (i & Hi & Xi). rewrite (block_quad n nb) by auto.
  assert (Y : 0 <= sm nb (fun a => D a * (sm n (fun i => delta (bin i) a * (e i * x i)) * sm n (fun j => delta (bin j) a * (e j * x j))))).
  { apply sm_nonneg. intros a Ha. apply Rmult_le_pos; auto. apply Rle_0_sqr. }
  assert (Z : 0 < sm n (fun i => k i * (x i * x i))); [|lra].
  assert (W : 0 <= sm n (fun j => k j * (x j * x j) - delta i j * (k j * (x j * x j)))).
  { apply sm_nonneg. intros j Hj. assert (S := Rle_0_sqr (x j)). unfold Rsqr in S. specialize (K j Hj). assert (0 <= k j * (x j * x j)) by (apply Rmult_le_pos; lra).
    unfold delta. destruct (Nat.eqb i j); lra. }
  rewrite sm_minus, sm_delta in W by auto. assert (0 < k i * (x i * x i)) by (apply Rmult_lt_0_compat; [auto|apply Rsqr_pos_lt; auto]). lra.
Qed.

Lemma edm_zero_inv gpu n g A : sym n A -> posdef n A -> (forall i, (i < n)%nat -> g i = 0) ->
  exists c, lib_edmval_cov gpu n g A = Ok (0, c) /\ forall i j, (i < n)%nat -> (j < n)%nat -> mm n A c i j = delta i j.
Proof.
  intros S P Z. destruct (edm_zero gpu n g A S P Z) as (c & E). exists c. split; auto. destruct (proj1 (lib_spec gpu n g A S) P) as (e & c' & E' & (_ & I & _)).
  rewrite E in E'. injection E' as _ <-. exact I.
Qed.

(** *** all bins *)
Lemma items_In : forall ps a0 a e b, In (a, (e, b)) (items_from a0 ps) -> exists p, (a0 <= a)%nat /\ nth_error ps (a - a0) = Some p /\ In (e, b) (combine (fb_es (fst p)) (snd p)).
Proof.
  induction ps as [|(f & bs) ps IH]; intros a0 a e b I; [contradiction|]. cbn [items_from] in I. apply in_app_iff in I. destruct I as [I|I].
  - apply in_map_iff in I. destruct I as (eb & Q & I). injection Q as <- ->. exists (f, bs). rewrite Nat.sub_diag. auto.
  - destruct (IH _ _ _ _ I) as (p & H1 & H2 & H3). exists p. split; [lia|]. split; auto. replace (a - a0)%nat with (S (a - S a0)) by lia. auto.
Qed.
Lemma profiles_In l t : forall bins ps, profiles l t bins = Some ps -> forall i p, nth_error ps i = Some p -> nth_error bins i = Some (fst p) /\ fb_profile l t (fst p) = Some (snd p).
Proof.
  induction bins as [|b bins IH]; intros ps E i p H; cbn [profiles] in E; [injection E as <-; destruct i; discriminate|].
  destruct (fb_profile l t b) as [bs|] eqn:F; [|discriminate]. destruct (profiles l t bins) as [ps'|]; [|discriminate]. injection E as <-.
  destruct i as [|i]; [injection H as <-; auto|]. apply (IH ps' eq_refl i p H).
Qed.
Section All.
  Variables (minstat : R) (active : proc -> bool).
  Hypothesis active_ok : forall p, active p = true <-> usable1 minstat p.
  Variables (l : lik) (t : bbtype) (ss : list sfull) (ps : list (fbin * list R)).
  Hypothesis NG : t <> Gamma.
  Hypothesis SANE : forall s, In s ss -> sane_full active l t s.
  Hypothesis PS : profiles l t (map (to_fb minstat) ss) = Some ps.
  Notation its := (unmasked (items_from 0 ps)).
  Lemma item_spec a e b : In (a, (e, b)) its -> exists s bs, In s ss /\ nth_error ps a = Some (to_fb minstat s, bs) /\ fb_profile l t (to_fb minstat s) = Some bs /\
    In (e, b) (combine (fb_es (to_fb minstat s)) bs) /\ bi_mask (fe_info e) = false.
  Proof using PS.
    intros I. apply filter_In in I. destruct I as (I & M). cbn [fst snd] in M. apply negb_true_iff in M. destruct (items_In _ _ _ _ _ I) as ((f & bs) & _ & H & C).
    rewrite Nat.sub_0_r in H. destruct (profiles_In l t _ _ PS a _ H) as (B & P). cbn [fst snd] in *. apply nth_error_In in B. apply in_map_iff in B.
    destruct B as (s & <- & IS). exists s, bs. auto.
  Qed.
  Lemma dd_nonneg a : 0 <= bin_dd l t (nth a ps (mkFB [] None, [])).
  Proof using PS SANE NG active_ok.
    destruct (nth_error ps a) as [(f & bs)|] eqn:H.
    - rewrite (nth_error_nth _ _ _ H). destruct (profiles_In l t _ _ PS a _ H) as (B & P). cbn [fst snd] in *. apply nth_error_In in B. apply in_map_iff in B. destruct B as (s & <- & IS).
      destruct (bin_stationary minstat active active_ok l t s bs NG (SANE s IS) P) as (_ & X & _). destruct (SANE s IS) as (_ & DO).
      unfold bin_dd. cbn [fst snd to_fb fb_obs fb_es] in *. destruct (sf_obs s) as [(nobs & var)|]; [|lra]. unfold ddln. destruct l.
      + destruct (Reqb nobs 0); [lra|]. specialize (X eq_refl ltac:(discriminate)). apply Rmult_le_pos; auto. left. apply Rinv_0_lt_compat. apply Rmult_lt_0_compat; auto.
      + left. apply Rinv_0_lt_compat. auto.
    - rewrite nth_overflow by (apply nth_error_None; auto). cbn. lra.
  Qed.
  Lemma kpos e (b : R) s bs : In s ss -> In (e, b) (combine (fb_es (to_fb minstat s)) bs) -> bi_mask (fe_info e) = false -> 0 < fddcon t e.
  Proof using PS SANE NG.
    intros IS I M. apply in_combine_l in I. cbn [to_fb fb_es] in I. apply in_map_iff in I. destruct I as ((p & b0) & <- & I).
    destruct (SANE s IS) as (OK & _). rewrite Forall_forall in OK. destruct (OK _ I) as (H1 & _). cbn [fst] in H1. unfold fddcon. destruct t; [congruence| |lra]. rewrite M.
    unfold fe in *. cbn [fe_info fst] in *. rewrite full_kstat by auto. apply (stat1_pos minstat); auto. apply full_mask. auto.
  Qed.
  Theorem full_edm gpu : exists c, edm_full gpu l t (map (to_fb minstat) ss) = Some (Ok (0, c)) /\
    forall i j, (i < List.length its)%nat -> (j < List.length its)%nat -> mm (List.length its) (item_hess l t ps its) c i j = delta i j.
  Proof using PS SANE NG active_ok.
    unfold edm_full. rewrite PS. unfold edm_full_at. set (d := (O, (mkF (mkBin 0 0 true 0) 0 0, 0)) : item).
    assert (IN : forall i, (i < List.length its)%nat -> In (nth i its d) its) by (intros; apply nth_In; auto).
    destruct (edm_zero_inv gpu (List.length its) (fun i => nth i (map (item_grad l t ps) its) 0) (item_hess l t ps its)) as (c & -> & INV).
    - apply (block_sym _ (fun i => fst (nth i its d)) (fun i => fslope t (fst (snd (nth i its d)))) (fun i => fddcon t (fst (snd (nth i its d)))) (fun a => bin_dd l t (nth a ps (mkFB [] None, [])))).
    - apply (block_posdef _ (List.length ps) (fun i => fst (nth i its d)) (fun i => fslope t (fst (snd (nth i its d)))) (fun i => fddcon t (fst (snd (nth i its d)))) (fun a => bin_dd l t (nth a ps (mkFB [] None, [])))).
      + intros i Hi. specialize (IN i Hi). destruct (nth i its d) as (a & e & b). destruct (item_spec a e b IN) as (s & bs & _ & H & _). apply nth_error_Some. cbn [fst]. congruence.
      + intros a _. apply dd_nonneg.
      + intros i Hi. specialize (IN i Hi). destruct (nth i its d) as (a & e & b). destruct (item_spec a e b IN) as (s & bs & IS & _ & _ & C & M). cbn [fst snd]. eapply kpos; eauto.
    - intros i Hi. rewrite (nth_indep _ 0 (item_grad l t ps d)) by (rewrite map_length; auto). rewrite map_nth. specialize (IN i Hi). destruct (nth i its d) as (a & e & b).
      destruct (item_spec a e b IN) as (s & bs & IS & H & P & C & M). unfold item_grad. cbn [fst snd]. rewrite (nth_error_nth _ _ _ H).
      destruct (bin_stationary minstat active active_ok l t s bs NG (SANE s IS) P) as (_ & _ & X). auto.
    - exists c. auto.
  Qed.
End All.

(** *** no other values are stationary *)
Definition spread (t : bbtype) (es : list fentry) : R := sumR (map (fun e => fslope t e * fslope t e / fddcon t e) es).
Lemma stat_value t d e b : t <> Gamma -> fslope t e * d + fdcon t e b = 0 -> fddcon t e <> 0 -> b = fe_b0 e - d * fslope t e / fddcon t e.
Proof.
  intros NG H K. assert (C : fdcon t e b = fddcon t e * (b - fe_b0 e)).
  { unfold fdcon, fddcon. destruct t; try congruence; [destruct (bi_mask (fe_info e)); ring|ring]. }
  rewrite C in H. apply Rmult_eq_reg_l with (fddcon t e); auto. replace (fddcon t e * b) with (fddcon t e * (b - fe_b0 e) + fddcon t e * fe_b0 e) by ring.
  replace (fddcon t e * (b - fe_b0 e)) with (- (fslope t e * d)) by lra. field. auto.
Qed.
Lemma yields_differ t : t <> Gamma -> forall es bs bs' d d', List.length bs = List.length es -> List.length bs' = List.length es ->
  (forall e, In e es -> bi_mask (fe_info e) = false -> 0 < fddcon t e) ->
  (forall e b, In (e, b) (combine es bs) -> fslope t e * d + fdcon t e b = 0) -> (forall e b, In (e, b) (combine es bs') -> fslope t e * d' + fdcon t e b = 0) ->
  sumR (apply_full t es bs) - sumR (apply_full t es bs') = - (d - d') * spread t es.
Proof.
  intros NG. induction es as [|e es IH]; intros bs bs' d d' L L' K S S'.
  - unfold spread. destruct bs, bs'; cbn; ring.
  - destruct bs as [|b bs]; [discriminate|]. destruct bs' as [|b' bs']; [discriminate|].
    assert (X := IH bs bs' d d' (f_equal pred L) (f_equal pred L') (fun e I => K e (or_intror I)) (fun e b I => S e b (or_intror I)) (fun e b I => S' e b (or_intror I))).
    assert (H := S e b (or_introl eq_refl)). assert (H' := S' e b' (or_introl eq_refl)).
    unfold apply_full, spread in *. cbn [combine map]. rewrite !sumR_cons.
    assert (Y : (match t with NormalAdd => fe_n e + fsbeta e * b | _ => if bi_mask (fe_info e) then fe_n e else b * fe_n e end)
              - (match t with NormalAdd => fe_n e + fsbeta e * b' | _ => if bi_mask (fe_info e) then fe_n e else b' * fe_n e end) = - (d - d') * (fslope t e * fslope t e / fddcon t e)).
    { assert (KE := K e (or_introl eq_refl)). destruct (Req_EM_T (fddcon t e) 0) as [Z|NZ].
      - unfold fslope, fddcon in *. destruct t; try congruence; [|lra]. destruct (bi_mask (fe_info e)); [unfold Rdiv; ring|specialize (KE eq_refl); lra].
      - assert (EB := stat_value t d e b NG H NZ). assert (EB' := stat_value t d' e b' NG H' NZ). rewrite EB, EB'.
        unfold fslope, fddcon in *. destruct t; try congruence; [destruct (bi_mask (fe_info e)); [congruence|]|]; field; auto. }
    lra.
Qed.
Lemma spread_nonneg t es : t <> Gamma -> (forall e, In e es -> bi_mask (fe_info e) = false -> 0 < fddcon t e) -> 0 <= spread t es.
Proof.
  intros NG K. unfold spread. induction es as [|e es IH]; [cbn; lra|]. cbn [map]. rewrite sumR_cons.
  assert (0 <= fslope t e * fslope t e / fddcon t e); [|specialize (IH (fun e I => K e (or_intror I))); lra].
  assert (KE := K e (or_introl eq_refl)). unfold fslope, fddcon in *. destruct t; try congruence.
  - destruct (bi_mask (fe_info e)); [unfold Rdiv; rewrite !Rmult_0_l; lra|]. specialize (KE eq_refl). apply Rmult_le_pos; [apply Rle_0_sqr|]. left. apply Rinv_0_lt_compat; auto.
  - apply Rmult_le_pos; [apply Rle_0_sqr|]. lra.
Qed.
Lemma dln_mono l nobs var x y : match l with Poisson => 0 <= nobs | Chisq => 0 < var end -> (l = Poisson -> 0 < x) -> x <= y -> dln l nobs var x <= dln l nobs var y.
Proof.
  intros D P L. unfold dln. destruct l.
  - destruct (Reqb nobs 0); [lra|]. specialize (P eq_refl). assert (nobs / y <= nobs / x); [|lra]. unfold Rdiv. apply Rmult_le_compat_l; auto. apply Rinv_le_contravar; auto.
  - unfold Rdiv. apply Rmult_le_compat_r; [left; apply Rinv_0_lt_compat; auto|lra].
Qed.
Theorem stationary_unique l t es nobs var bs bs' : t <> Gamma -> match l with Poisson => 0 <= nobs | Chisq => 0 < var end ->
  (forall e, In e es -> bi_mask (fe_info e) = false -> 0 < fddcon t e) -> List.length bs = List.length es -> List.length bs' = List.length es ->
  let x := sumR (apply_full t es bs) in let x' := sumR (apply_full t es bs') in (l = Poisson -> 0 < x) -> (l = Poisson -> 0 < x') ->
  (forall e b, In (e, b) (combine es bs) -> fslope t e * dln l nobs var x + fdcon t e b = 0) ->
  (forall e b, In (e, b) (combine es bs') -> fslope t e * dln l nobs var x' + fdcon t e b = 0) ->
  forall i e, nth_error es i = Some e -> bi_mask (fe_info e) = false -> nth i bs 0 = nth i bs' 0.
Proof.
  intros NG D K L L' x x' P P' S S' i e E M.
  assert (X : x = x').
  { assert (Y := yields_differ t NG es bs bs' _ _ L L' K S S'). fold x x' in Y. assert (N := spread_nonneg t es NG K).
    destruct (Rtotal_order x x') as [H|[H|H]]; auto; exfalso.
    - assert (Q := dln_mono l nobs var x x' D P (Rlt_le _ _ H)). assert (0 <= (dln l nobs var x' - dln l nobs var x) * spread t es) by (apply Rmult_le_pos; lra). lra.
    - assert (Q := dln_mono l nobs var x' x D P' (Rlt_le _ _ H)). assert (0 <= (dln l nobs var x - dln l nobs var x') * spread t es) by (apply Rmult_le_pos; lra). lra. }
  assert (KE := K e (nth_error_In _ _ E) M).
  assert (G : forall cs, List.length cs = List.length es -> In (e, nth i cs 0) (combine es cs)).
  { clear -E. revert i E. induction es as [|a es IH]; intros [|i] E [|c cs] Q; try discriminate.
    - injection E as ->. left. auto.
    - right. apply (IH i E cs). cbn in Q. lia. }
  rewrite (stat_value t (dln l nobs var x) e (nth i bs 0)), (stat_value t (dln l nobs var x') e (nth i bs' 0)), X; auto; try lra.
Qed.

(** *** arbitrary values *)
Section At.
  Variables (minstat : R) (active : proc -> bool).
  Hypothesis active_ok : forall p, active p = true <-> usable1 minstat p.
  Variables (l : lik) (t : bbtype) (vs : list (sfull * list R)).
  Hypothesis NG : t <> Gamma.
  Hypothesis SANE : forall s bs, In (s, bs) vs -> sane_full active l t s /\ (l = Poisson -> sf_obs s <> None -> 0 < sumR (apply_full t (fb_es (to_fb minstat s)) bs)).
  Notation ps := (map (fun v : sfull * list R => (to_fb minstat (fst v), snd v)) vs).
  Notation its := (unmasked (items_from 0 ps)).
  Lemma at_item a e b : In (a, (e, b)) its -> exists s bs, In (s, bs) vs /\ nth_error ps a = Some (to_fb minstat s, bs) /\
    In (e, b) (combine (fb_es (to_fb minstat s)) bs) /\ bi_mask (fe_info e) = false.
  Proof using.
    intros I. apply filter_In in I. destruct I as (I & M). cbn [fst snd] in M. apply negb_true_iff in M. destruct (items_In _ _ _ _ _ I) as ((f & bs) & _ & H & C).
    rewrite Nat.sub_0_r in H. assert (B := nth_error_In _ _ H). apply in_map_iff in B. destruct B as ((s & bs') & Q & IS). cbn [fst snd] in *. injection Q as <- <-. exists s, bs'. auto.
  Qed.
  Lemma at_dd a : 0 <= bin_dd l t (nth a ps (mkFB [] None, [])).
  Proof using SANE NG.
    destruct (nth_error ps a) as [(f & bs)|] eqn:H.
    - rewrite (nth_error_nth _ _ _ H). assert (B := nth_error_In _ _ H). apply in_map_iff in B. destruct B as ((s & bs') & Q & IS). cbn [fst snd] in Q. injection Q as <- <-.
      destruct (SANE s bs' IS) as ((_ & DO) & X). unfold bin_dd. cbn [fst snd to_fb fb_obs fb_es] in *. destruct (sf_obs s) as [(nobs & var)|]; [|lra]. unfold ddln. destruct l.
      + destruct (Reqb nobs 0); [lra|]. specialize (X eq_refl ltac:(discriminate)). apply Rmult_le_pos; auto. left. apply Rinv_0_lt_compat. apply Rmult_lt_0_compat; auto.
      + left. apply Rinv_0_lt_compat. auto.
    - rewrite nth_overflow by (apply nth_error_None; auto). cbn. lra.
  Qed.
  Lemma at_k e (b : R) s bs : In (s, bs) vs -> In (e, b) (combine (fb_es (to_fb minstat s)) bs) -> bi_mask (fe_info e) = false -> 0 < fddcon t e.
  Proof using SANE NG.
    intros IS I M. apply in_combine_l in I. cbn [to_fb fb_es] in I. apply in_map_iff in I. destruct I as ((p & b0) & <- & I).
    destruct (SANE s bs IS) as ((OK & _) & _). rewrite Forall_forall in OK. destruct (OK _ I) as (H1 & _). cbn [fst] in H1. unfold fddcon. destruct t; [congruence| |lra]. rewrite M.
    unfold fe in *. cbn [fe_info fst] in *. rewrite full_kstat by auto. apply (stat1_pos minstat); auto. apply full_mask. auto.
  Qed.
  Theorem at_edm gpu : exists v c, edm_full_at gpu l t ps = Ok (v, c) /\
    v = (1 / 2) * vdot (List.length its) (fun i => nth i (map (item_grad l t ps) its) 0) (mv (List.length its) c (fun i => nth i (map (item_grad l t ps) its) 0)) /\
    (forall i j, (i < List.length its)%nat -> (j < List.length its)%nat -> mm (List.length its) (item_hess l t ps its) c i j = delta i j) /\ 0 <= v /\ (v = 0 <-> forall it, In it its -> item_grad l t ps it = 0).
  Proof using SANE NG.
    unfold edm_full_at. set (d := (O, (mkF (mkBin 0 0 true 0) 0 0, 0)) : item). set (P := ps) in *. set (I := unmasked (items_from 0 P)) in *.
    assert (IN : forall i, (i < List.length I)%nat -> In (nth i I d) I) by (intros; apply nth_In; auto).
    assert (SY : sym (List.length I) (item_hess l t P I)).
    { apply (block_sym _ (fun i => fst (nth i I d)) (fun i => fslope t (fst (snd (nth i I d)))) (fun i => fddcon t (fst (snd (nth i I d)))) (fun a => bin_dd l t (nth a P (mkFB [] None, [])))). }
    assert (PD : posdef (List.length I) (item_hess l t P I)).
    { apply (block_posdef _ (List.length P) (fun i => fst (nth i I d)) (fun i => fslope t (fst (snd (nth i I d)))) (fun i => fddcon t (fst (snd (nth i I d)))) (fun a => bin_dd l t (nth a P (mkFB [] None, [])))).
      + intros i Hi. specialize (IN i Hi). destruct (nth i I d) as (a & e & b). destruct (at_item a e b IN) as (s & bs & _ & H & _). apply nth_error_Some. cbn [fst]. unfold P. congruence.
      + intros a _. apply at_dd.
      + intros i Hi. specialize (IN i Hi). destruct (nth i I d) as (a & e & b). destruct (at_item a e b IN) as (s & bs & IS & _ & C & M). cbn [fst snd]. eapply at_k; eauto. }
    destruct (proj1 (lib_spec gpu _ (fun i => nth i (map (item_grad l t P) I) 0) _ SY) PD) as (v & c & E & (VE & INV & _)). exists v, c. split; auto. split; [rewrite VE; field|]. split; auto.
    destruct (edm_iff gpu _ _ _ v c SY PD E) as (V & W). split; auto. rewrite W. split.
    - intros H it J. destruct (In_nth I it d J) as (i & Hi & <-). specialize (H i Hi). rewrite (nth_indep _ 0 (item_grad l t P d)), map_nth in H by (rewrite map_length; auto). auto.
    - intros H i Hi. rewrite (nth_indep _ 0 (item_grad l t P d)), map_nth by (rewrite map_length; auto). auto.
  Qed.
End At.
