(** C37-C39, C41, C64-C67: impacts. *)
From Coq Require Import List Arith Bool String Reals Lra Lia.
From Verif Require Import PyList PyDict RBase Mat_Model Mat_Proof Linear_Model Linear_Spec Linear_Proof Impacts_Model Impacts_Spec Impacts_Solve Impacts_Proof
  Impacts_Trad Impacts_Global Impacts_Labels Freeze_Model Freeze_Spec Envelope_Model Envelope_Spec Envelope_Proof Envelope_Gauss Envelope_Sources.
Import ListNotations.
Local Open Scope R_scope.

(** *** C37 *)
(** every row: impacts of the single parameters, and grouped columns. A group explains the part of the variance that
    no linear combination of its members leaves; stat columns are the variances of the fit with only the unconstrained
    parameters floating *)
Theorem C37_traditional_impacts frozen floating n npoi npou nnoc cov hess hnb noi sg pg :
  let nmod := (npoi + npou)%nat in let nstat := (npoi + npou + nnoc)%nat in let fl := stat_list frozen floating nstat in
  covariance n cov -> NoDup floating -> curv_ok fl hess -> (forall h, hnb = Some h -> curv_ok fl h) ->
  (nmod <= n)%nat -> (forall k, In k noi -> (nmod + k < n)%nat) ->
  (forall g, In g sg -> group_ok n cov (map (fun k => nmod + k)%nat g)) -> (forall g, In g pg -> group_ok n cov g) ->
  exists out, impacts_parms frozen floating n npoi npou nnoc cov hess hnb noi sg pg = Ok out /\
    Forall2 (fun i row => (forall j, (j < n)%nat -> is_impact cov i j (fst row j)) /\
      exists cs ct cp, snd row = cs ++ ct ++ cp /\
        Forall2 (fun g => group_column n cov i (map (fun k => nmod + k)%nat g)) sg cs /\ stat_spec hess hnb fl i ct /\
        Forall2 (group_column n cov i) pg cp) (reported_list npoi nmod noi) out.
Proof. exact (impacts_parms_spec frozen floating n npoi npou nnoc cov hess hnb noi sg pg). Qed.
Print Assumptions C37_traditional_impacts.
Theorem C37_group_unique n C i l a b : group_impact n C i l a -> group_impact n C i l b -> a = b.
Proof. exact (group_unique n C i l a b). Qed.
Theorem C37_group_below_total n C i l a : covariance n C -> group_impact n C i l a -> 0 <= a <= sqrt (C i i).
Proof. intros K G. split; [apply G|eapply group_bounded; eauto]. Qed.
Theorem C37_group_of_one n C i j a g : covariance n C -> (i < n)%nat -> (j < n)%nat -> 0 < C j j -> is_impact C i j a -> group_impact n C i [j] g -> g = Rabs a.
Proof. exact (group_of_one n C i j a g). Qed.
Theorem C37_larger_group_larger_impact n C i l l' a b : incl l l' -> group_impact n C i l a -> group_impact n C i l' b -> a <= b.
Proof. exact (group_monotone n C i l l' a b). Qed.
(** the statistical part is below the total, and no larger without profiling *)
Theorem C37_stat_below_total H S F i w w' : block_sym F H -> block_posdef F H -> NoDup S -> NoDup F -> incl S F -> In i S ->
  block_posdef S H -> inverse_entry H S i w -> inverse_entry H F i w' -> w <= w'.
Proof. exact (inv_mono H S F i w w'). Qed.
Theorem C37_larger_curvature_smaller_share H H' S i w w' : block_sym S H -> block_posdef S H -> block_sym S H' -> block_posdef S H' -> NoDup S -> In i S ->
  (forall z, lq S H z z <= lq S H' z z) -> inverse_entry H S i w -> inverse_entry H' S i w' -> w' <= w.
Proof. exact (inv_curv H H' S i w w'). Qed.
(** a group with a frozen unconstrained parameter has no impact: the call raises *)
Theorem C37_frozen_unconstrained_member_refuted : exists n floating cov hess sg,
  covariance n cov /\ NoDup floating /\ curv_ok (stat_list true floating 1) hess /\ (forall g k, In g sg -> In k g -> (1 + k < n)%nat) /\
  impacts_parms true floating n 1 0 0 cov hess None [] sg [] = Raise GenericException.
Proof.
  exists 2%nat, [0%nat], (fun i j => if Nat.eqb i 0 then delta i j else 0), (fun _ _ => 1), [[0%nat]]. split; [|split; [|split; [|split]]].
  - split.
    + intros i j Hi Hj. destruct i as [|[|i]], j as [|[|j]]; try lia; reflexivity.
    + intros x. unfold quad, mv, delta. cbn. assert (X := Rle_0_sqr (x 0%nat)). unfold Rsqr in X. lra.
  - repeat constructor; intros [].
  - split.
    + intros i j _ _. reflexivity.
    + intros v (i & [<-|[]] & V). unfold lsum. cbn. apply Rsqr_pos_lt in V. unfold Rsqr in V. lra.
  - intros g k [<-|[]] [<-|[]]. lia.
  - unfold impacts_parms, cov_stat_floating. cbn [filter Nat.ltb Nat.leb Nat.add]. unfold ginv. cbn [List.length gsolve amax swap_row gat2 nth].
    rewrite !(Reqb_false (gat2 (fun _ _ => 1) [0%nat] 0 0) 0) by (cbn [gat2 nth]; unfold gat2; lra). cbn [rbind]. unfold trad_impacts, out_rows. cbn [seq map combine app emap].
    unfold compute_impact_group. cbn [List.length map Nat.add gsolve amax swap_row nth]. unfold gat2. cbn [nth Nat.eqb]. rewrite Reqb_true by auto. reflexivity.
Qed.
(** parameter 0 with variance 4, nuisance 1 with variance 9, covariance 3 *)
Definition c2 (i j : nat) : R := match i, j with 0%nat, 0%nat => 4 | 1%nat, 1%nat => 9 | _, _ => 3 end.
Lemma c2_cov : covariance 2 c2.
Proof.
  split.
  - intros i j Hi Hj. destruct i as [|[|i]], j as [|[|j]]; try lia; reflexivity.
  - intros x. unfold quad, mv. cbn. assert (X := Rle_0_sqr (x 0%nat + 3 * x 1%nat)). assert (Y := Rle_0_sqr (x 0%nat)). unfold Rsqr in X, Y. lra.
Qed.
Example C37_example : single_impact c2 (Some 0%nat) 1 = 1 /\ single_impact c2 (Some 0%nat) 0 = 2 /\ compute_impact_group c2 (c2 0) [1%nat] = Ok (Some 1).
Proof.
  assert (S9 : sqrt 9 = 3) by (replace 9 with (3 * 3) by lra; apply sqrt_square; lra). assert (S4 : sqrt 4 = 2) by (replace 4 with (2 * 2) by lra; apply sqrt_square; lra).
  split; [|split].
  - unfold single_impact, safe_sigma. cbn [read_row c2]. rewrite S9, Rltb_true by lra. lra.
  - unfold single_impact, safe_sigma. cbn [read_row c2]. rewrite S4, Rltb_true by lra. lra.
  - unfold compute_impact_group. cbn [List.length gsolve amax swap_row nth]. unfold gat2. cbn [nth c2]. rewrite Reqb_false by lra. cbn [sm nth c2].
    unfold tsqrt. match goal with |- context [Rltb ?x 0] => replace x with 1 by lra end. rewrite Rltb_false by lra. rewrite sqrt_1. reflexivity.
Qed.

(** *** C38 *)
(** likelihood global impacts of the parameters: constraint centres, bin-by-bin centres and data add up to the variance *)
Theorem C38_parameters_add_up K J F C bbb npoi nmod noi sg pg :
  nonneg_curvature K -> convex_data K -> profiled K J -> NoDup F -> (forall i, In i F -> (i < k_n K)%nat) -> cov_of K J F C ->
  bbb_matches K J bbb -> (forall i, In i (reported_list npoi nmod noi) -> In i F) ->
  Forall2 (fun i row => (forall j, (j < k_n K)%nat -> fst row j = sqrt (k_cw K j) * C j i) /\
      adds_up (k_n K) nmod sg pg (bbb_shape bbb) (fst row) (snd row) (C i i))
    (reported_list npoi nmod noi) (global_impacts_parms (k_n K) C (k_cw K) bbb npoi nmod noi sg pg).
Proof. exact (global_parms_spec K J F C bbb npoi nmod noi sg pg). Qed.
Print Assumptions C38_parameters_add_up.
Theorem C38_observables_add_up K J F C bbb nmod sg pg d p :
  nonneg_curvature K -> convex_data K -> profiled K J -> NoDup F -> (forall i, In i F -> (i < k_n K)%nat) -> cov_of K J F C ->
  obs_matches K J bbb -> (forall i, (i < k_n K)%nat -> ~ In i F -> d i = 0) ->
  exists row q, global_impacts_obs (k_n K) C (k_cw K) bbb nmod sg pg d p = Ok row /\
    (match bbb with Some (_, c) => obs_q c (k_m K) p = Ok q | None => True end) /\
    (forall j, (j < k_n K)%nat -> fst row j = sqrt (k_cw K j) * mv (k_n K) C d j) /\
    adds_up (k_n K) nmod sg pg (bbb_shape (option_map fst bbb)) (fst row) (snd row) (obs_variance (k_n K) (k_m K) C d p q).
Proof. exact (global_obs_spec K J F C bbb nmod sg pg d p). Qed.
Print Assumptions C38_observables_add_up.
(** Gaussian global impacts of a likelihood with linear predictions *)
Theorem C38_gaussian_add_up K J F C nobs D bbb Kx Kn Kb npoi nmod noi sg pg :
  nonneg_curvature K -> profiled K J -> NoDup F -> (forall i, In i F -> (i < k_n K)%nat) -> cov_of K J F C -> sym (k_n K) C ->
  gdata K J nobs D Kn -> gbbb_matches K J Kb bbb ->
  (forall i j, (i < k_n K)%nat -> (j < k_n K)%nat -> Kx i j = - (k_cw K i * delta i j)) ->
  (forall i, In i (reported_list npoi nmod noi) -> In i F) ->
  exists out, gaussian_impacts_parms (k_n K) C (k_cw K) nobs D bbb Kx Kn Kb npoi nmod noi sg pg = Ok out /\
    Forall2 (fun i row => (forall j, (j < k_n K)%nat -> fst row j = sqrt (k_cw K j) * C j i) /\
      adds_up (k_n K) nmod sg pg (gbbb_shape bbb) (fst row) (snd row) (C i i)) (reported_list npoi nmod noi) out.
Proof. exact (gaussian_spec K J F C nobs D bbb Kx Kn Kb npoi nmod noi sg pg). Qed.
Print Assumptions C38_gaussian_add_up.
Theorem C38_linear_predictions_convex K J nobs v kap Ax Ab Kn : diag_data K J nobs v kap Ax Ab Kn -> convex_data K.
Proof. exact (diag_convex K J nobs v kap Ax Ab Kn). Qed.
(** one Poisson bin with n events and prediction exp x + b: at the minimum the data curvature is negative, the constraint
    explains more than the total variance and the data column is NaN *)
Definition lam (x : R) : R := exp x + (100 - exp 1).
Definition nev : R := 100 * (1 + / exp 1).
Definition nll1 (x : R) : R := lam x - nev * ln (lam x) + 1 / 2 * (x * x).
Definition dnll1 (x : R) : R := exp x - nev * (/ lam x * exp x) + x.
Lemma lam_pos x : 0 < lam x.
Proof. unfold lam. assert (A := exp_pos x). assert (B := exp_le_3). lra. Qed.
Lemma dl_eq f g x a b : (forall y, g y = f y) -> a = b -> derivable_pt_lim f x a -> derivable_pt_lim g x b.
Proof. intros E <- D eps He. destruct (D eps He) as (d & Hd). exists d. intros h H1 H2. rewrite !E. auto. Qed.
Lemma lam_deriv x : derivable_pt_lim lam x (exp x).
Proof.
  apply (dl_eq (exp + fct_cte (100 - exp 1))%F _ x (exp x + 0)); [reflexivity|ring|].
  apply derivable_pt_lim_plus; [apply derivable_pt_lim_exp|apply derivable_pt_lim_const].
Qed.
Lemma nll1_deriv x : derivable_pt_lim nll1 x (dnll1 x).
Proof.
  apply (dl_eq ((lam - mult_real_fct nev (comp ln lam)) + mult_real_fct (1 / 2) (id * id))%F _ x (exp x - nev * (/ lam x * exp x) + 1 / 2 * (1 * id x + id x * 1))).
  - reflexivity.
  - unfold dnll1, id. field.
    assert (X := lam_pos x). lra.
  - apply derivable_pt_lim_plus.
    + apply derivable_pt_lim_minus; [apply lam_deriv|]. apply derivable_pt_lim_scal. apply derivable_pt_lim_comp; [apply lam_deriv|apply derivable_pt_lim_ln; apply lam_pos].
    + apply derivable_pt_lim_scal. apply derivable_pt_lim_mult; apply derivable_pt_lim_id.
Qed.
Definition hess1 : R := (exp 1 * exp 1 + exp 1) / 100.
Lemma lam_1 : lam 1 = 100. Proof. unfold lam. ring. Qed.
Lemma dnll1_deriv : derivable_pt_lim dnll1 1 hess1.
Proof.
  assert (E := exp_pos 1).
  apply (dl_eq ((exp - mult_real_fct nev (div_fct (fct_cte 1) lam * exp)) + id)%F _ 1
    (exp 1 - nev * ((0 * lam 1 - exp 1 * fct_cte 1 1) / Rsqr (lam 1) * exp 1 + div_fct (fct_cte 1) lam 1 * exp 1) + 1)).
  - intros y. unfold dnll1, plus_fct, minus_fct, mult_real_fct, mult_fct, div_fct, fct_cte, id. unfold Rdiv. ring.
  - unfold div_fct, fct_cte, hess1, nev, Rsqr. rewrite lam_1. field. lra.
  - apply derivable_pt_lim_plus; [|apply derivable_pt_lim_id]. apply derivable_pt_lim_minus; [apply derivable_pt_lim_exp|].
    apply derivable_pt_lim_scal. apply derivable_pt_lim_mult; [|apply derivable_pt_lim_exp].
    apply derivable_pt_lim_div; [apply derivable_pt_lim_const|apply lam_deriv|rewrite lam_1; lra].
Qed.
Theorem C38_negative_data_curvature_refuted : exists (f f' : R -> R) (x H : R),
  (forall y, derivable_pt_lim f y (f' y)) /\ f' x = 0 /\ derivable_pt_lim f' x H /\ 0 < H /\
  snd (hd ((fun _ => 0), []) (global_impacts_parms 1 (fun _ _ => / H) (fun _ => 1) None 0 0 [0%nat] [] [])) = [None].
Proof.
  assert (E := exp_pos 1). assert (E3 := exp_le_3). assert (HP : 0 < hess1) by (unfold hess1; nra).
  assert (H1 : hess1 < 1) by (unfold hess1; nra).
  exists nll1, dnll1, 1, hess1. split; [exact nll1_deriv|]. split; [unfold dnll1; rewrite lam_1; unfold nev; field; lra|]. split; [exact dnll1_deriv|]. split; auto.
  unfold global_impacts_parms. cbn [reported seq map app hd]. unfold global_row, global_columns, x0_impact. cbn [snd map app sm]. unfold mv. cbn [sm Nat.eqb delta]. rewrite sqrt_1.
  f_equal. unfold tsqrt. rewrite Rltb_true; auto.
  assert (C1 : 1 < / hess1) by (apply (Rmult_lt_reg_l hess1); auto; rewrite Rinv_r by lra; lra).
  unfold delta. cbn [Nat.eqb Nat.add]. revert C1. generalize (/ hess1). intros c C1. cbn [pow]. nra.
Qed.
Print Assumptions C38_negative_data_curvature_refuted.
(** one measurement of a + b with curvature 4 and a unit constraint on b (parameter 1) *)
Definition k2 : curvature := {| k_n := 2; k_m := 0; k_Dxx := fun _ _ => 4; k_Dxb := fun _ _ => 0; k_Dbb := fun _ _ => 0;
  k_cw := fun i => match i with 1%nat => 1 | _ => 0 end; k_s := fun _ => 0 |}.
Definition c22 (i j : nat) : R := match i, j with 0%nat, 0%nat => 5/4 | 1%nat, 1%nat => 1 | _, _ => -1 end.
Example C38_example : exists v, snd (hd (fun _ => 0, []) (global_impacts_parms 2 c22 (k_cw k2) None 1 1 [] [[0%nat]] [])) = [Some 1; Some v] /\ 0 <= v /\ 1 ^ 2 + v ^ 2 = 5/4.
Proof.
  assert (X := C38_parameters_add_up k2 (fun _ _ => 0) [0; 1]%nat c22 None 1 1 [] [[0%nat]] []). cbv zeta in X.
  assert (NN : nonneg_curvature k2). { split; [|split]; cbn; intros; try lia. destruct i as [|[|i]]; lra. intros a b Ha Hb. lia. }
  specialize (X NN). assert (CX : convex_data k2).
  { intros a b. unfold jquad, quad, mv. cbn. assert (Q := Rle_0_sqr (a 0%nat + a 1%nat)). unfold Rsqr in Q. lra. }
  specialize (X CX). assert (P : profiled k2 (fun _ _ => 0)) by (intros b i Hb; cbn in Hb; lia). specialize (X P).
  assert (ND : NoDup [0; 1]%nat) by (repeat constructor; cbn; intuition discriminate). specialize (X ND).
  assert (R : forall i, In i [0; 1]%nat -> (i < k_n k2)%nat) by (cbn; intros i [<-|[<-|[]]]; lia). specialize (X R).
  assert (CO : cov_of k2 (fun _ _ => 0) [0; 1]%nat c22).
  { split.
    - intros i j [<-|[<-|[]]] [<-|[<-|[]]]; unfold lsum, k_prof, k_Hxx, delta; cbn; lra.
    - intros i j Hi Hj N. exfalso. apply N. cbn in *. lia. }
  specialize (X CO eq_refl). assert (RF : forall i, In i (reported_list 1 1 []) -> In i [0; 1]%nat) by (cbn; intuition). specialize (X RF).
  change (reported_list 1 1 []) with [0%nat] in X. change (k_n k2) with 2%nat in X.
  set (out := global_impacts_parms 2 c22 (k_cw k2) None 1 1 [] [[0%nat]] []) in *. clearbody out.
  inversion X as [|i row l r (I1 & A) F]; subst. clear X. cbn [hd].
  destruct A as (cs & mid & cp & EC & SG & SP & v & -> & Pv & V). cbn in I1.
  inversion SP; subst. inversion SG as [|g c gs cs' (a & -> & Pa & Ea) SG']; subst. inversion SG'; subst.
  assert (J0 := I1 0%nat ltac:(lia)). assert (J1 := I1 1%nat ltac:(lia)). cbn in J0, J1. rewrite sqrt_0 in J0. rewrite sqrt_1 in J1.
  unfold lsum in Ea. cbn [map fold_right Nat.add] in Ea. cbn [sm] in V. rewrite J0, J1 in V. rewrite J1 in Ea.
  exists v. rewrite app_nil_r in EC. rewrite EC. cbn [app]. split; [|split; [auto|]].
  - f_equal. f_equal. assert (a * a = 1) by (cbn in Ea; lra). nra.
  - unfold c22 in V. cbn in V. cbn. lra.
Qed.

(** *** C39 *)
Theorem C39_envelope vs : envelope_spec vs (envelope vs).
Proof. exact (envelope_ok vs). Qed.
Print Assumptions C39_envelope.
Theorem C39_removal ws vs : subseq ws vs -> ~ has_nan vs -> fle (env_lower vs) (env_lower ws) /\ fle (env_upper ws) (env_upper vs).
Proof. exact (envelope_removal ws vs). Qed.
Theorem C39_quadrature_difference tot frozen : difference_spec true (fst tot) (fst frozen) (fst (quad_subtract tot frozen)) /\
  difference_spec false (snd tot) (snd frozen) (snd (quad_subtract tot frozen)).
Proof. split; apply quad_side_ok. Qed.
(** failed refits and scans are reported as zero shifts *)
Theorem C39_failed_refit_refuted : exists fit x0 x cw i,
  (forall c s, fit c s = Raise GenericException) /\ ga_row fit x0 x cw 1 None i = ([Fin 0], [Fin 0]) /\
  snd (snd (global_asym fit cw 1 None [i] ["a"%string] [] x0 x)) = [("Total"%string, ([Fin 0], [Fin 0]))].
Proof.
  exists (fun _ _ => Raise GenericException), [0], [Fin 3], [1], 0%nat. split; auto. split; [reflexivity|].
  unfold global_asym, ga_row, ga_sign, envelopes, envelope, env_lower, env_upper, column. cbn. assert (E : Rltb 0 0 = false) by (apply Rltb_false; lra). rewrite !E. cbn.
  replace (0 * 0 + 0) with 0 by ring. rewrite E, sqrt_0. cbn. rewrite Ropp_0. reflexivity.
Qed.
Theorem C39_failed_scan_refuted : forall params n, In NaN params -> asym_row n params = repeat (Fin 0) n.
Proof. intros params n H. unfold asym_row. replace (existsb is_nan params) with true; auto. symmetry. apply existsb_exists. exists NaN. auto. Qed.
Example C39_example : envelope [(Fin (-3), Fin 4); (Fin (-4), Fin 3)] = (Fin (-5), Fin 5) /\ envelope [(Fin (-3), Fin 4); (Fin (-4), NaN)] = (NaN, NaN) /\
  quad_subtract (Fin (-5), Fin 5) (Fin (-4), PInf) = (Fin (-3), NaN).
Proof.
  assert (S25 : sqrt 25 = 5) by (replace 25 with (5 * 5) by lra; apply sqrt_square; lra). assert (S9 : sqrt 9 = 3) by (replace 9 with (3 * 3) by lra; apply sqrt_square; lra). split; [|split].
  - unfold envelope, env_lower, env_upper. cbn [map fst snd fmin fmax]. rewrite (Rltb_false 4 (-3)), (Rltb_true (-3) 0), (Rltb_false 3 (-4)), (Rltb_true (-4) 0), (Rltb_true (-3) 4), (Rltb_true 0 4), (Rltb_true (-4) 3), (Rltb_true 0 3) by lra.
    cbn [fsq fsum fold_right fadd]. replace (-3 * -3 + (-4 * -4 + 0)) with 25 by lra. replace (4 * 4 + (3 * 3 + 0)) with 25 by lra. cbn [fsqrt]. rewrite Rltb_false, S25 by lra. reflexivity.
  - reflexivity.
  - unfold quad_subtract, quad_side. cbn [fst snd]. rewrite Rltb_true by lra. replace (-5 * -5 - -4 * -4) with 9 by lra. rewrite S9. reflexivity.
Qed.

(** *** C41 *)
(** without model parameters the groups of frozen nuisances are right *)
Theorem C41_groups_without_model_parameters_partial n frozen groups rows : List.length frozen = List.length rows ->
  groups_spec 0 n frozen groups rows (np_groups n frozen groups rows).
Proof. exact (np_groups_first n frozen groups rows). Qed.
(** with the group indices shifted by the number of model parameters, as the other impacts do, they always are *)
Theorem C41_groups_shifted nparams n frozen groups rows : List.length frozen = List.length rows ->
  groups_spec nparams n frozen groups rows (np_groups n frozen (map (fun g => (fst g, map (fun j => nparams + j)%nat (snd g))) groups) rows).
Proof. exact (np_groups_shifted nparams n frozen groups rows). Qed.
(** for every number of model parameters the first frozen nuisance is attributed to the group of another one *)
Theorem C41_groups_refuted : forall nparams n row, (1 <= nparams)%nat -> exists frozen groups,
  np_groups n frozen groups [row] = [("B"%string, envelopes n [row])] /\ ~ groups_spec nparams n frozen groups [row] (np_groups n frozen groups [row]).
Proof.
  intros np n row H. exists [np], [("A"%string, [0%nat]); ("B"%string, [np])].
  assert (E : np_groups n [np] [("A"%string, [0%nat]); ("B"%string, [np])] [row] = [("B"%string, envelopes n [row])]).
  { unfold np_groups. cbn [flat_map fst snd]. unfold np_rows. cbn [combine filter fst existsb]. rewrite Nat.eqb_refl. replace (Nat.eqb np 0) with false by (symmetry; apply Nat.eqb_neq; lia). reflexivity. }
  split; auto. rewrite E. intros (os & EO & F). inversion F as [|g o gs os' (sel & RO & M) F']; subst. cbn [fst snd] in *.
  assert (RO' : rows_of (fun i => exists j, In j [0%nat] /\ i = (np + j)%nat) [np] [row] [row]).
  { exists [0%nat]. split; [cbn; intros; lia|]. split; [|repeat constructor]. intros k. split.
    - intros [<-|[]]. exists np. split; auto. exists 0%nat. cbn. split; auto.
    - intros (i & X & _). destruct k as [|[|k]]; cbn in *; auto; discriminate. }
  assert (L := rows_of_unique _ _ _ _ _ RO RO'). destruct o as [[name e]|]; [|subst sel; discriminate].
  destruct M as (-> & _). cbn [flat_map opt_list app] in EO. injection EO as EO _. discriminate.
Qed.
Print Assumptions C41_groups_refuted.
Example C41_example : forall row, np_groups 1 [1%nat] [("A"%string, [0%nat]); ("B"%string, [1%nat])] [row] = [("B"%string, envelopes 1 [row])].
Proof. reflexivity. Qed.

(** *** C64 *)
Theorem C64_row_labels {A} (parms : list A) npoi nparams noi d : (npoi <= nparams)%nat -> (nparams <= List.length parms)%nat ->
  row_labels parms npoi nparams noi d = map (fun i => nth i parms d) (reported_list npoi nparams noi).
Proof. exact (row_labels_spec parms npoi nparams noi d). Qed.
Theorem C64_traditional_columns frozen floating n npoi npou nnoc cov hess hnb noi sg pg procs :
  let nmod := (npoi + npou)%nat in let nstat := (npoi + npou + nnoc)%nat in let fl := stat_list frozen floating nstat in
  covariance n cov -> NoDup floating -> curv_ok fl hess -> (forall h, hnb = Some h -> curv_ok fl h) ->
  (nmod <= n)%nat -> (forall k, In k noi -> (nmod + k < n)%nat) ->
  (forall g, In g (map snd sg) -> group_ok n cov (map (fun k => nmod + k)%nat g)) -> (forall g, In g (map snd pg) -> group_ok n cov g) ->
  exists out, impacts_parms frozen floating n npoi npou nnoc cov hess hnb noi (map snd sg) (map snd pg) = Ok out /\
    Forall2 (fun i row => Forall2 (trad_means n cov hess hnb fl nmod i)
       (grouped_axis sg (match hnb with Some _ => true | None => false end) false procs pg) (snd row)) (reported_list npoi nmod noi) out.
Proof.
  intros nmod nstat fl K ND HO HN LM NO SG PG.
  destruct (impacts_parms_spec frozen floating n npoi npou nnoc cov hess hnb noi (map snd sg) (map snd pg) K ND HO HN LM NO SG PG) as (out & E & F).
  exists out. split; auto. clear E. revert F. fold nmod. generalize (reported_list npoi nmod noi). intros l F.
  induction F as [|i row l out HX F IH]; constructor; auto. destruct HX as (_ & X). apply trad_columns_labelled. exact X.
Qed.
Print Assumptions C64_traditional_columns.
Theorem C64_global_columns n nmod sg pg bbb imp cols var procs :
  adds_up n nmod (map snd sg) (map snd pg) bbb imp cols var ->
  (match bbb with Some (np, true) => np = List.length procs | _ => True end) ->
  exists v b bs, 0 <= v /\ 0 <= b /\ (forall x, In x bs -> 0 <= x) /\ sm n (fun j => imp j ^ 2) + b ^ 2 + v ^ 2 = var /\
    (match bbb with Some (_, true) => fold_right Rplus 0 (map (fun x => x ^ 2) bs) = b ^ 2 | _ => True end) /\
    Forall2 (global_means nmod imp v b bs)
      (grouped_axis sg (match bbb with Some _ => true | None => false end) (match bbb with Some (_, f) => f | None => false end) (numbered procs) pg) cols.
Proof. exact (global_columns_labelled n nmod sg pg bbb imp cols var procs). Qed.
Example C64_example : row_labels ["mu"; "nu"; "a"; "b"; "c"]%string 1 2 [1; 2]%nat ""%string = ["mu"; "b"; "c"]%string /\
  grouped_axis ["g"]%string true true ["p"; "q"]%string ["h"]%string = [LGroup "g"; LStat; LBBB; LBBBproc "p"; LBBBproc "q"; LParam "h"]%string.
Proof. split; reflexivity. Qed.
(** the rows computed without a Hessian are the reported ones if all model parameters are parameters of interest *)
Theorem C64_hessian_free_rows_partial npoi npou noi : npou = 0%nat \/ noi = [] -> hessfree_rows npoi noi = reported_list npoi (npoi + npou) noi.
Proof. intros [->| ->]; rewrite hessfree_rows_spec; [rewrite Nat.add_0_r; auto|reflexivity]. Qed.
Theorem C64_hessian_free_rows_refuted : forall npoi npou noi, (1 <= npou)%nat -> noi <> [] -> hessfree_rows npoi noi <> reported_list npoi (npoi + npou) noi.
Proof.
  intros npoi npou [|k r] H N E; [contradiction|]. unfold hessfree_rows, reported_list in E. apply app_inv_head in E. cbn [map] in E. injection E as E _. lia.
Qed.

(** *** C65 *)
Theorem C65_nonprofiled_refits fit cw u frozen_idx frozen_params groups x0 x st out :
  nonprofiled fit cw u frozen_idx frozen_params groups (x0, x) = Ok (st, out) ->
  st = (x0, x) /\ exists rows, out = (frozen_params, rows, np_groups (List.length x) frozen_idx groups rows ++ [("Total"%string, envelopes (List.length x) rows)]) /\
    Forall2 (nonprofiled_row fit x0 x cw u) frozen_idx rows.
Proof. exact (nonprofiled_spec fit cw u frozen_idx frozen_params groups x0 x st out). Qed.
Theorem C65_nonprofiled_succeeds fit cw u frozen_idx frozen_params groups x0 x :
  (forall i v, In i frozen_idx -> exists y, fit (lset x0 i v) (lset x i (Fin v)) = Ok y) ->
  exists r, nonprofiled fit cw u frozen_idx frozen_params groups (x0, x) = Ok r.
Proof. exact (nonprofiled_total fit cw u frozen_idx frozen_params groups x0 x). Qed.
Print Assumptions C65_nonprofiled_refits.
Theorem C65_global_asym fit cw sigma dx sel names groups x0 x st labels rows grouped :
  global_asym fit cw sigma dx sel names groups x0 x = (st, (labels, rows, grouped)) ->
  (forall i s, In i sel -> exists y, fit (shift_at x0 i s) (ga_start dx x i s) = Ok y) ->
  st = (x0, x) /\ labels = names /\ Forall2 (source_row fit x0 x cw sigma) sel rows /\
  exists gs, source_groups (List.length x) sel groups (source_row fit x0 x cw sigma) gs /\
    grouped = gs ++ match sel with [] => [] | _ => [("Total"%string, envelopes (List.length x) rows)] end.
Proof. exact (global_asym_spec fit cw sigma dx sel names groups x0 x st labels rows grouped). Qed.
Print Assumptions C65_global_asym.
(** in the Gaussian limit they are the global impacts *)
Theorem C65_gaussian_limit n A b cw C fit sigma dx i x0 x :
  inverse_of n C (fun k l => A k l + nth k cw 0 * delta k l) -> (i < n)%nat -> List.length x0 = n -> 0 < nth i cw 0 ->
  quadratic_fit n A b (fun k => nth k cw 0) fit -> stationary n A b (fun k => nth k cw 0) x0 x ->
  ga_row fit x0 (map Fin x) cw sigma dx i =
  (map (fun k => Fin (- (sigma * (sqrt (nth i cw 0) * C k i)))) (seq 0 n), map (fun k => Fin (sigma * (sqrt (nth i cw 0) * C k i))) (seq 0 n)).
Proof. exact (global_asym_gaussian n A b cw C fit sigma dx i x0 x). Qed.
Print Assumptions C65_gaussian_limit.
(** the scanned sources: nuisances with a constraint and model parameters with a prior that were asked for *)
Theorem C65_sources nparams cw keep priored pkeep j :
  In j (ga_sources nparams cw keep priored pkeep) <->
  (exists i w, nth_error cw i = Some w /\ 0 < w /\ keep i = true /\ j = (nparams + i)%nat) \/ (In j priored /\ pkeep j = true).
Proof. exact (ga_sources_spec nparams cw keep priored pkeep j). Qed.
Print Assumptions C65_sources.
(** a group holds the nuisances of that name, moved past the model parameters, and the parameters of that name *)
Theorem C65_group_members nparams sg pg q : NoDup (map fst sg) ->
  (In q (map fst sg) \/ In q (map fst pg) ->
   exists l, dget q (ga_groups nparams sg pg) = Some l /\
     forall j, In j l <-> (exists i, In i (members q sg) /\ j = (nparams + i)%nat) \/ In j (members q pg)) /\
  (~ In q (map fst sg) -> ~ In q (map fst pg) -> dget q (ga_groups nparams sg pg) = None).
Proof. exact (ga_groups_spec nparams sg pg q). Qed.
Print Assumptions C65_group_members.
Example C65_group_members_example :
  dget "g"%string (ga_groups 2 [("g"%string, [0; 3]%nat); ("h"%string, [1]%nat)] [("g"%string, [1]%nat)]) = Some [2; 5; 1]%nat.
Proof. reflexivity. Qed.
(** the entries of the non-profiled impacts are the negated shifts: a parameter which both variations raise by one is
    reported with a downward envelope *)
Definition sqfit (c : list R) (s : list fl) : result (list fl) := Ok [Fin (nth 1 c 0 * nth 1 c 0); nth 1 s NaN].
Theorem C65_nonprofiled_direction_refuted :
  refit sqfit [0; 0] [Fin 0; Fin 0] 1 1 [Fin 1; Fin 1] /\ refit sqfit [0; 0] [Fin 0; Fin 0] 1 (-1) [Fin 1; Fin (-1)] /\
  exists rows g, nonprofiled sqfit [0; 1] 1 [1%nat] ["a"%string] [] ([0; 0], [Fin 0; Fin 0]) = Ok (([0; 0], [Fin 0; Fin 0]), (["a"%string], rows, [("Total"%string, g)])) /\
    column 0 g = (Fin (-1), Fin 0).
Proof.
  assert (NE : np_err [0; 1] 1 1 = 1). { unfold np_err. cbn. rewrite Reqb_false by lra. rewrite sqrt_1. apply Rinv_1. }
  split; [|split].
  - exists [0; 1], [Fin 0; Fin 1]. split; [apply (lset_only [0; 0] 1 1)|]. split; [apply (lset_only [Fin 0; Fin 0] 1 (Fin 1))|]. unfold sqfit. cbn. repeat f_equal. ring.
  - exists [0; -1], [Fin 0; Fin (-1)]. split; [apply (lset_only [0; 0] 1 (-1))|]. split; [apply (lset_only [Fin 0; Fin 0] 1 (Fin (-1)))|]. unfold sqfit. cbn. repeat f_equal. ring.
  - unfold nonprofiled, np_loop, np_one, np_sign. cbn [fst snd]. rewrite NE. cbn. eexists _, _. split; [reflexivity|]. unfold column. cbn.
    replace (0 + - ((1 * 1 + 0) * (1 * 1 + 0))) with (-1) by ring. replace (0 + - ((-1 * 1 + 0) * (-1 * 1 + 0))) with (-1) by ring.
    unfold env_lower, column. cbn. assert (E1 : Rltb (-1) (-1) = false) by (apply Rltb_false; lra). assert (E2 : Rltb (-1) 0 = true) by (apply Rltb_true; lra).
    assert (E3 : Rltb 0 (-1) = false) by (apply Rltb_false; lra). rewrite !E1, !E2, !E3. rewrite !Rltb_false by lra. cbn.
    replace (-1 * -1 + 0) with 1 by ring. replace (0 * 0 + 0) with 0 by ring. rewrite sqrt_1, sqrt_0. reflexivity.
Qed.
(** labels of the frozen parameters *)
Theorem C65_labels_partial rx (parms exprs : list string) st d : NoDup parms -> freeze_params rx parms (finit parms) exprs = Ok st ->
  map (fun i => nth i parms d) (fz_idx st) = fz_list st.
Proof. exact (frozen_labels_call rx parms exprs st d). Qed.
Theorem C65_labels_two_calls_refuted : exists rx parms st1 st2, NoDup parms /\ freeze_params rx parms (finit parms) ["b"%string] = Ok st1 /\
  freeze_params rx parms st1 ["a"%string] = Ok st2 /\ map (fun i => nth i parms ""%string) (fz_idx st2) = ["a"; "b"]%string /\ fz_list st2 = ["b"; "a"]%string.
Proof.
  exists (fun e => Some (String.eqb e)), ["a"; "b"]%string. eexists _, _. split; [repeat constructor; cbn; intuition discriminate|].
  split; [reflexivity|]. split; [reflexivity|]. split; reflexivity.
Qed.

(** *** C66 *)
Theorem C66_freeze_groups rx parms scan L targets groups constrained :
  (forall g m, In g groups -> In m (snd g) -> literal rx parms m) -> (forall m, In m constrained -> literal rx parms m) ->
  exists cols stat, grouped_asym rx parms scan targets groups constrained (update_frozen parms L) =
    Ok (update_frozen parms L, cols ++ [("stat"%string, stat); ("Total"%string, map (fun t => scan t L) targets)]) /\
    Forall2 (fun g c => fst c = fst g /\ freeze_group_column scan parms L targets (snd g) (snd c)) groups cols /\
    frozen_column scan parms L targets constrained stat.
Proof. exact (grouped_asym_spec rx parms scan L targets groups constrained). Qed.
Print Assumptions C66_freeze_groups.
(** a nuisance whose name, read as an expression, also matches a parameter frozen by the user releases that parameter *)
Definition dot_rx : regex := fun e => Some (if String.eqb e "a."%string then (fun p => String.eqb p "a."%string || String.eqb p "ab"%string) else String.eqb e).
Theorem C66_user_frozen_released_refuted : exists scan parms st', grouped_asym dot_rx parms scan ["mu"%string] [("g"%string, ["a."%string])] [] (update_frozen parms ["ab"%string]) = Ok st' /\
  fz_list (fst st') = [] /\ fz_idx (update_frozen parms ["ab"%string]) = [2%nat] /\ fz_idx (fst st') = [].
Proof. exists (fun _ _ => (Fin (-1), Fin 1)), ["mu"; "a."; "ab"]%string. eexists. split; [reflexivity|]. split; [reflexivity|]. split; reflexivity. Qed.
Example C66_example : exists cols, grouped_asym (fun e => Some (String.eqb e)) ["mu"; "a"; "b"]%string
    (fun t fr => if smem "a"%string fr then (Fin (-4), Fin 4) else (Fin (-5), Fin 5)) ["mu"%string] [("g"%string, ["a"%string])] [] (update_frozen ["mu"; "a"; "b"]%string []) =
    Ok (update_frozen ["mu"; "a"; "b"]%string [], cols) /\ cols = [("g"%string, [(Fin (-3), Fin 3)]); ("stat"%string, [(Fin (-5), Fin 5)]); ("Total"%string, [(Fin (-5), Fin 5)])].
Proof.
  eexists. split; [reflexivity|]. assert (S9 : sqrt 9 = 3) by (replace 9 with (3 * 3) by lra; apply sqrt_square; lra). cbn [fst snd].
  unfold quad_subtract, quad_side. cbn.
  replace (-5 * -5 - -4 * -4) with 9 by lra. replace (5 * 5 - 4 * 4) with 9 by lra. rewrite !Rltb_true, !S9 by lra. reflexivity.
Qed.
