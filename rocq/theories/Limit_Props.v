(** Properties C55 and C77-C80: asymptotic limits. *)
From Coq Require Import Reals List Arith ZArith Bool String Lia Lra.
From Verif Require Import RBase PyList PyDict Map_Model Map_Merge Freeze_Model BBStat_Model Fit_Model Session_Model Session_Props Limit_Model Limit_Spec Limit_Proof Limit_Root.
Import ListNotations.
Local Open Scope R_scope.
Local Open Scope string_scope.

(** * C55 *)
Theorem C55_unpack_pack idx x1 x2 : List.length x1 = List.length x2 -> (idx < List.length x1)%nat -> nth_error x1 idx = nth_error x2 idx -> unpack idx (pack idx x1 x2) = Ok (x1, x2).
Proof. exact (unpack_pack idx x1 x2). Qed.
Theorem C55_pack_unpack idx v x1 x2 : Nat.Odd (List.length v) -> unpack idx v = Ok (x1, x2) -> pack idx x1 x2 = v /\ List.length x1 = List.length x2 /\ nth_error x1 idx = nth_error x2 idx.
Proof. exact (pack_unpack idx v x1 x2). Qed.
Theorem C55_unpack_total idx v : Nat.Odd (List.length v) -> (idx < (List.length v + 1) / 2)%nat -> exists x, unpack idx v = Ok x.
Proof. exact (unpack_ok idx v). Qed.
Example C55_example : pack 1 [1; 2; 3] [4; 2; 5] = [1; 2; 3; 4; 5] /\ unpack 1 [1; 2; 3; 4; 5] = Ok ([1; 2; 3], [4; 2; 5]).
Proof. split; reflexivity. Qed.
(** the two fitters "are allowed to have different parameters" (line 34), but then the vector is split in the wrong place *)
Theorem C55_lengths_refuted : exists idx x1 x2, (idx < List.length x1)%nat /\ nth_error x1 idx = nth_error x2 idx /\ unpack idx (pack idx x1 x2) <> Ok (x1, x2).
Proof. exists 0%nat, [1], [1; 3; 4]. split; [cbn; lia|]. split; [reflexivity|]. cbn. intros H. injection H. intros. discriminate. Qed.

(** * C77 *)
Theorem C77_gradient_partial cdf pdf cl L1 L2 idx x1 x2 g1 g2 : (forall x, derivable_pt_lim cdf x (pdf x)) ->
  List.length x1 = List.length x2 -> (idx < List.length x1)%nat -> nth_error x1 idx = nth_error x2 idx ->
  is_gradient L1 x1 g1 -> is_gradient L2 x2 g2 -> 0 < L1 x1 -> 0 < L2 x2 ->
  is_gradient (constraint_at cdf cl L1 0 L2 0 idx) (pack idx x1 x2) (constraint_grad pdf cl (L1 x1) 0 (L2 x2) 0 idx g1 g2).
Proof. intros D. exact (grad_correct cdf pdf D cl L1 L2 idx x1 x2 g1 g2). Qed.
(** what the gradient is for any minima *)
Theorem C77_true_gradient cdf pdf cl L1 m1 L2 m2 idx x1 x2 g1 g2 : (forall x, derivable_pt_lim cdf x (pdf x)) ->
  List.length x1 = List.length x2 -> (idx < List.length x1)%nat -> nth_error x1 idx = nth_error x2 idx ->
  is_gradient L1 x1 g1 -> is_gradient L2 x2 g2 -> 0 < L1 x1 - m1 -> 0 < L2 x2 - m2 ->
  is_gradient (constraint_at cdf cl L1 m1 L2 m2 idx) (pack idx x1 x2) (true_grad pdf cl (L1 x1) m1 (L2 x2) m2 idx g1 g2).
Proof. intros D. exact (true_grad_correct cdf pdf D cl L1 m1 L2 m2 idx x1 x2 g1 g2). Qed.
(** with a minimum other than zero the gradient used is not the gradient of the constraint *)
Theorem C77_gradient_wrong cdf pdf cl L1 m1 L2 m2 idx x1 x2 g1 g2 j : (forall x, derivable_pt_lim cdf x (pdf x)) ->
  List.length x1 = List.length x2 -> (idx < List.length x1)%nat -> nth_error x1 idx = nth_error x2 idx ->
  is_gradient L1 x1 g1 -> is_gradient L2 x2 g2 -> 0 < L1 x1 - m1 -> 0 < L2 x2 - m2 -> 0 < L2 x2 ->
  (forall x, 0 < pdf x) -> 0 < cl -> m2 <> 0 -> (j < List.length x2)%nat -> j <> idx -> nth j g2 0 <> 0 ->
  ~ is_gradient (constraint_at cdf cl L1 m1 L2 m2 idx) (pack idx x1 x2) (constraint_grad pdf cl (L1 x1) m1 (L2 x2) m2 idx g1 g2).
Proof. intros D. exact (grad_wrong cdf pdf D cl L1 m1 L2 m2 idx x1 x2 g1 g2 j). Qed.
Definition ex_L (v : list R) : R := nth 0 v 0 + 2 * nth 1 v 0.
Lemma ex_L_grad a b : is_gradient ex_L [a; b] [1; 2].
Proof.
  split; [reflexivity|]. intros [|[|j]] J; [| |cbn in J; lia]; unfold partial, set_at; cbn [nth firstn skipn app].
  - apply (dlim_ext (plus_fct id (fct_cte (2 * b)))); [intros; reflexivity|]. replace 1 with (1 + 0) by lra. apply derivable_pt_lim_plus; [apply derivable_pt_lim_id|apply derivable_pt_lim_const].
  - apply (dlim_ext (plus_fct (fct_cte a) (mult_real_fct 2 id))); [intros; reflexivity|]. replace 2 with (0 + 2 * 1) at 2 by lra. apply derivable_pt_lim_plus; [apply derivable_pt_lim_const|apply derivable_pt_lim_scal; apply derivable_pt_lim_id].
Qed.
Theorem C77_gradient_refuted : exists cdf pdf cl L1 m1 L2 m2 idx x1 x2 g1 g2, (forall x, derivable_pt_lim cdf x (pdf x)) /\ (forall x, 0 < pdf x) /\ 0 < cl < 1 /\
  List.length x1 = List.length x2 /\ (idx < List.length x1)%nat /\ nth_error x1 idx = nth_error x2 idx /\ is_gradient L1 x1 g1 /\ is_gradient L2 x2 g2 /\ 0 < m1 < L1 x1 /\ 0 < m2 < L2 x2 /\
  ~ is_gradient (constraint_at cdf cl L1 m1 L2 m2 idx) (pack idx x1 x2) (constraint_grad pdf cl (L1 x1) m1 (L2 x2) m2 idx g1 g2).
Proof.
  exists exp, exp, (1 / 20), ex_L, 1, ex_L, 1, 0%nat, [1; 1], [1; 2], [1; 2], [1; 2].
  assert (G1 := ex_L_grad 1 1). assert (G2 := ex_L_grad 1 2).
  assert (V1 : ex_L [1; 1] = 3) by (unfold ex_L; cbn; lra). assert (V2 : ex_L [1; 2] = 5) by (unfold ex_L; cbn; lra).
  split; [exact derivable_pt_lim_exp|]. split; [exact exp_pos|]. split; [lra|]. split; [reflexivity|]. split; [cbn; lia|]. split; [reflexivity|]. split; [exact G1|]. split; [exact G2|]. split; [lra|]. split; [lra|].
  apply (C77_gradient_wrong exp exp (1 / 20) ex_L 1 ex_L 1 0 [1; 1] [1; 2] [1; 2] [1; 2] 1); auto; try lra; try (cbn; lia); try exact derivable_pt_lim_exp; try exact exp_pos. cbn. lra.
Qed.
Example C77_example : is_gradient (constraint_at exp (1 / 20) ex_L 0 ex_L 0 0) [1; 1; 2] (constraint_grad exp (1 / 20) (ex_L [1; 1]) 0 (ex_L [1; 2]) 0 0 [1; 2] [1; 2]).
Proof.
  change [1; 1; 2] with (pack 0 [1; 1] [1; 2]). apply C77_gradient_partial; [exact derivable_pt_lim_exp|reflexivity|cbn; lia|reflexivity|apply ex_L_grad|apply ex_L_grad|unfold ex_L; cbn; lra|unfold ex_L; cbn; lra].
Qed.
(** the objective handed to the optimiser has slope -1, its jacobian says -0.001 *)
Theorem C77_objective_wrong idx v : (idx < List.length v)%nat -> ~ is_gradient (objective idx) v (objective_jac idx v).
Proof.
  intros I (_ & H). specialize (H idx I). unfold partial, objective_jac in H. rewrite set_at_nth in H by (rewrite map_length; auto). rewrite Nat.eqb_refl in H.
  assert (T : derivable_pt_lim (fun t => objective idx (set_at idx t v)) (nth idx v 0) (-1)).
  { apply (dlim_ext (opp_fct id)). { intros t. unfold objective, opp_fct, id. rewrite set_at_nth by auto. rewrite Nat.eqb_refl. reflexivity. } apply derivable_pt_lim_opp. apply derivable_pt_lim_id. }
  pose proof (uniqueness_limite _ _ _ _ H T). lra.
Qed.
Theorem C77_objective_refuted : exists idx v, ~ is_gradient (objective idx) v (objective_jac idx v).
Proof. exists 0%nat, [5]. apply C77_objective_wrong. cbn. lia. Qed.

(** * C78 *)
Theorem C78_root cdf ppf xobs err cl_s x : (forall x y, x < y -> cdf x < cdf y) -> (forall p, 0 < p < 1 -> cdf (ppf p) = p) ->
  0 <= xobs -> 0 < err -> 0 < cl_s < 1 -> 0 < cdf (xobs / err) < 1 -> gaussian_eq cdf xobs err err cl_s x = 0 <-> x = xobs - err * ppf (cl_s * cdf (xobs / err)).
Proof. intros A B. exact (gaussian_root cdf ppf A B xobs err cl_s x). Qed.
Theorem C78_bands_partial cdf ppf err cl_s cl_b x : (forall x y, x < y -> cdf x < cdf y) -> (forall p, 0 < p < 1 -> cdf (ppf p) = p) ->
  0 < err -> 0 < cl_s < 1 -> 0 < cl_b < 1 -> 0 <= ppf cl_b -> gaussian_eq cdf (err * ppf cl_b) err err cl_s x = 0 <-> x = expected_limit ppf 0 err cl_s cl_b.
Proof. intros A B. exact (expected_is_observed cdf ppf A B err cl_s cl_b x). Qed.
Theorem C78_level cdf ppf xbest err cl_s cl_s' cl_b : (forall x y, x < y -> cdf x < cdf y) -> (forall p, 0 < p < 1 -> cdf (ppf p) = p) ->
  0 <= err -> 0 < cl_s -> cl_s <= cl_s' -> cl_s' < 1 -> 0 < cl_b < 1 -> expected_limit ppf xbest err cl_s' cl_b <= expected_limit ppf xbest err cl_s cl_b.
Proof. intros A B. exact (expected_level cdf ppf A B xbest err cl_s cl_s' cl_b). Qed.
(** a distribution function with its quantiles: logistic *)
Definition lcdf (x : R) : R := 1 / (1 + exp (- x)).
Definition lppf (p : R) : R := ln (p / (1 - p)).
Lemma lcdf_inc x y : x < y -> lcdf x < lcdf y.
Proof.
  intros H. unfold lcdf. pose proof (exp_pos (- x)). pose proof (exp_pos (- y)). assert (exp (- y) < exp (- x)) by (apply exp_increasing; lra). unfold Rdiv. rewrite !Rmult_1_l. apply Rinv_lt_contravar; [apply Rmult_lt_0_compat; lra|lra].
Qed.
Lemma lppf_inv p : 0 < p < 1 -> lcdf (lppf p) = p.
Proof.
  intros H. unfold lcdf, lppf. assert (0 < p / (1 - p)) by (apply Rdiv_lt_0_compat; lra). rewrite exp_Ropp, exp_ln by auto. field. split; [|split]; lra.
Qed.
Example C78_example : expected_limit lppf 0 2 (1 / 20) (1 / 2) = 2 * ln 39 /\ gaussian_eq lcdf 0 2 2 (1 / 20) (2 * ln 39) = 0.
Proof.
  assert (Z : lppf (1 / 2) = 0) by (unfold lppf; replace (1 / 2 / (1 - 1 / 2)) with 1 by field; apply ln_1).
  assert (V : lppf (1 / 20 * (1 / 2)) = - ln 39) by (unfold lppf; replace (1 / 20 * (1 / 2) / (1 - 1 / 20 * (1 / 2))) with (/ 39) by field; apply ln_Rinv; lra).
  assert (L : 0 < ln 39) by (rewrite <- ln_1; apply ln_increasing; lra).
  assert (E : expected_limit lppf 0 2 (1 / 20) (1 / 2) = 2 * ln 39).
  { unfold expected_limit. cbv zeta. rewrite Z, V. replace ((0 - - ln 39) * (0 - - ln 39)) with (ln 39 * ln 39) by lra. rewrite sqrt_square by lra. lra. }
  split; auto. replace 0 with (2 * lppf (1 / 2)) at 1 by (rewrite Z; lra). apply (C78_bands_partial lcdf lppf 2 (1 / 20) (1 / 2)); try lra; [exact lcdf_inc|exact lppf_inv].
Qed.
(** a positive parameter at zero: all expected limits are zero whatever the data *)
Theorem C78_zero_refuted : exists ppf err cl_s cl_b, 0 < err /\ expected_limit ppf 0 (limit_err true false 0 err) cl_s cl_b = 0 /\ expected_limit ppf 0 (limit_err true true 0 err) cl_s cl_b > 0.
Proof.
  exists lppf, 2, (1 / 20), (1 / 2). split; [lra|]. unfold limit_err. cbn [andb negb]. rewrite sqrt_0. split; [unfold expected_limit; lra|]. rewrite (proj1 C78_example). assert (0 < ln 39) by (rewrite <- ln_1; apply ln_increasing; lra). lra.
Qed.
Theorem C78_positive_error v err : limit_err true false (v * v) err = Rabs (2 * v) * err.
Proof. exact (err_right v err). Qed.

(** ** every observation, every pair of errors *)
(** there is exactly one limit: the hypothesised values whose CLs is above the level are those below it *)
Theorem C78_limit cdf xobs xobs_err xerr cl_s : distribution cdf -> 0 < xobs_err -> 0 < xerr -> 0 < cl_s < 1 ->
  exists x, 0 < x /\ gaussian_eq cdf xobs xobs_err xerr cl_s x = 0 /\
    (forall y, 0 <= y -> gaussian_eq cdf xobs xobs_err xerr cl_s y = 0 -> y = x) /\
    forall y q, 0 <= y -> stat xobs xobs_err y q -> (y < x <-> cl_s < cls cdf q (y / xerr)) /\ (y = x <-> cls cdf q (y / xerr) = cl_s).
Proof.
  intros D E1 E2 C. destruct (limit_exists cdf D xobs xobs_err xerr cl_s E1 E2 C) as (x & X & Z). exists x. split; auto. split; auto.
  assert (S : forall y, 0 <= y -> _) by exact (fun y => limit_sides cdf D xobs xobs_err xerr cl_s x y E1 E2 C (Rlt_le _ _ X) Z).
  split.
  - intros y Y H. destruct (S y Y) as [S1 S2]. destruct (Rtotal_order y x) as [L|[L|L]]; auto; [specialize (S1 L)|specialize (S2 L)]; lra.
  - intros y q Y H. destruct (S y Y) as [S1 S2]. apply stat_qmu in H; auto.
    assert (G : gaussian_eq cdf xobs xobs_err xerr cl_s y = (cls cdf q (y / xerr) - cl_s) * cdf (y / xerr - q)) by (unfold gaussian_eq; cbv zeta; rewrite H; apply eq_cls, D).
    rewrite G in S1, S2. pose proof (proj1 D (y / xerr - q)) as P. set (p := cdf (y / xerr - q)) in *. set (r := cls cdf q (y / xerr)) in *.
    assert (T : forall u, 0 < u * p -> 0 < u) by (intros u U; apply (Rmult_lt_reg_r p); lra).
    assert (T' : forall u, u * p < 0 -> u < 0) by (intros u U; apply (Rmult_lt_reg_r p); lra).
    assert (U1 : y < x -> cl_s < r) by (intros L; specialize (T _ (S1 L)); lra). assert (U2 : x < y -> r < cl_s) by (intros L; specialize (T' _ (S2 L)); lra).
    assert (U3 : y = x -> r = cl_s). { intros ->. rewrite Z in G. symmetry in G. apply Rmult_integral in G. destruct G; lra. }
    destruct (Rtotal_order y x) as [L|[L|L]]; [specialize (U1 L)|specialize (U3 L)|specialize (U2 L)]; split; split; intros; lra.
Qed.
(** the normal distribution function qualifies *)
Theorem C78_normal F : (forall x, derivable_pt_lim F x (/ sqrt (2 * PI) * exp (- (x * x) / 2))) ->
  (forall eps, 0 < eps -> exists m, forall x, x <= m -> Rabs (F x) < eps) -> distribution F /\ strictly_log_concave F.
Proof.
  intros A B. assert (C : 0 < / sqrt (2 * PI)) by (apply Rinv_0_lt_compat, sqrt_lt_R0; pose proof PI_RGT_0; lra).
  split; [exact (normal_distribution F _ C A B)|exact (normal_strict F _ C A B)].
Qed.
(** for a negative observation the limit is larger than the expected limit at the same downward fluctuation *)
Theorem C78_negative cdf ppf err cl_s cl_b x : distribution cdf -> strictly_log_concave cdf -> (forall p, 0 < p < 1 -> cdf (ppf p) = p) ->
  0 < err -> 0 < cl_s < 1 -> 0 < cl_b < 1 -> ppf cl_b < 0 -> 0 <= x ->
  gaussian_eq cdf (err * ppf cl_b) err err cl_s x = 0 -> expected_limit ppf 0 err cl_s cl_b < x.
Proof. intros D S I. exact (negative_band cdf ppf D S I err cl_s cl_b x). Qed.
Lemma lcdf_strict : strictly_log_concave lcdf.
Proof.
  intros x y h L Hh. unfold lcdf. replace (- (y + h)) with (- y + - h) by lra. replace (- (x + h)) with (- x + - h) by lra. rewrite !exp_plus.
  pose proof (exp_pos (- x)) as A. pose proof (exp_pos (- y)) as B. pose proof (exp_pos (- h)) as K. assert (AB : exp (- y) < exp (- x)) by (apply exp_increasing; lra).
  assert (K1 : exp (- h) < 1) by (rewrite <- exp_0; apply exp_increasing; lra). set (a := exp (- x)) in *. set (b := exp (- y)) in *. set (k := exp (- h)) in *.
  pose proof (Rmult_lt_0_compat a k A K). pose proof (Rmult_lt_0_compat b k B K).
  replace (1 / (1 + a) * (1 / (1 + b * k))) with (/ ((1 + a) * (1 + b * k))) by (field; lra). replace (1 / (1 + a * k) * (1 / (1 + b))) with (/ ((1 + a * k) * (1 + b))) by (field; lra).
  assert (0 < (a - b) * (1 - k)) by (apply Rmult_lt_0_compat; lra).
  apply Rinv_lt_contravar; [|lra]. repeat apply Rmult_lt_0_compat; lra.
Qed.
Lemma lcdf_distribution : distribution lcdf.
Proof.
  assert (P : forall x, 0 < lcdf x) by (intros x; unfold lcdf; pose proof (exp_pos (- x)); apply Rdiv_lt_0_compat; lra).
  split; auto. split; [exact lcdf_inc|]. split; [|split].
  - intros x. unfold lcdf. pose proof (exp_pos (- x)). apply (continuity_pt_div (fct_cte 1) (fun x => 1 + exp (- x))); [reg| |lra]. reg. 
  - intros x y h [L| ->] [H|<-]; try (rewrite !Rplus_0_r; lra); try lra. left. apply lcdf_strict; auto.
  - intros eps E. exists (ln (eps / 2)). intros x X. unfold lcdf. pose proof (exp_pos (- x)) as Q. assert (S : 0 < eps / 2) by lra.
    assert (exp x <= eps / 2). { rewrite <- (exp_ln (eps / 2)) by auto. destruct X as [X| ->]; [left; apply exp_increasing; auto|lra]. }
    assert (/ (1 + exp (- x)) < / exp (- x)) by (apply Rinv_lt_contravar; [apply Rmult_lt_0_compat|]; lra). rewrite <- exp_Ropp, Ropp_involutive in H0. lra.
Qed.
(** a downward fluctuation of one error, logistic distribution: the limit exists and is above the band *)
Theorem C78_bands_negative_refuted : exists cdf ppf err cl_s cl_b x, distribution cdf /\ (forall p, 0 < p < 1 -> cdf (ppf p) = p) /\
  0 < err /\ 0 < cl_s < 1 /\ 0 < cl_b < 1 /\ gaussian_eq cdf (err * ppf cl_b) err err cl_s x = 0 /\ 0 < x /\ x <> expected_limit ppf 0 err cl_s cl_b.
Proof.
  destruct (C78_limit lcdf (2 * lppf (1 / 4)) 2 2 (1 / 20) lcdf_distribution) as (x & X & Z & _); try lra.
  exists lcdf, lppf, 2, (1 / 20), (1 / 4), x. split; [exact lcdf_distribution|]. split; [exact lppf_inv|]. split; [lra|]. split; [lra|]. split; [lra|]. split; auto. split; auto.
  assert (N : lppf (1 / 4) < 0) by (unfold lppf; rewrite <- ln_1; apply ln_increasing; lra).
  pose proof (C78_negative lcdf lppf 2 (1 / 20) (1 / 4) x lcdf_distribution lcdf_strict lppf_inv ltac:(lra) ltac:(lra) ltac:(lra) N (Rlt_le _ _ X) Z). lra.
Qed.
(** different errors and a negative observation *)
Example C78_limit_example : exists x, 0 < x /\ gaussian_eq lcdf (-1) 2 3 (1 / 20) x = 0 /\ stat (-1) 2 1 (sqrt 3 / 2) /\ stat (-1) 2 0 0 /\ cls lcdf 0 (0 / 3) = 1.
Proof.
  destruct (C78_limit lcdf (-1) 2 3 (1 / 20) lcdf_distribution) as (x & X & Z & _); try lra. exists x. split; auto. split; auto. split; [|split].
  - right. split; [lra|]. assert (S : sqrt 3 * sqrt 3 = 3) by (apply sqrt_sqrt; lra). pose proof (sqrt_pos 3). split; [lra|]. replace (sqrt 3 / 2 * (sqrt 3 / 2)) with (sqrt 3 * sqrt 3 / 4) by field. rewrite S. field.
  - right. split; [lra|]. split; [lra|field].
  - unfold cls. replace (0 / 3 - 0) with (- 0) by field. field. unfold lcdf. pose proof (exp_pos (- - 0)). apply Rgt_not_eq. apply Rdiv_lt_0_compat; lra.
Qed.

(** * C79 *)
Theorem C79_value_partial npoi params systs poi nui theta key i : (npoi <= List.length params)%nat -> List.length poi = npoi -> List.length nui = (List.length params - npoi)%nat -> List.length theta = List.length systs ->
  index_of key (params ++ systs) = Some i -> (i < npoi \/ List.length params <= i)%nat ->
  exists v, nth_error (poi ++ nui ++ theta) i = Some v /\ limit_value npoi params systs poi theta key = Ok v.
Proof. exact (value_right npoi params systs poi nui theta key i). Qed.
Theorem C79_missing npoi params systs poi theta key : ~ In key (params ++ systs) -> limit_value npoi params systs poi theta key = Raise RuntimeError.
Proof. exact (value_missing npoi params systs poi theta key). Qed.
Example C79_example : limit_value 1 ["mu"] ["a"; "b"] [3] [4; 5] "mu" = Ok 3 /\ limit_value 1 ["mu"] ["a"; "b"] [3] [4; 5] "a" = Ok 4.
Proof. split; reflexivity. Qed.
(** a model parameter that is not a parameter of interest gets the value of another nuisance *)
Theorem C79_value_refuted : exists npoi params systs poi nui theta key i v w, NoDup (params ++ systs) /\ List.length poi = npoi /\ List.length nui = (List.length params - npoi)%nat /\ List.length theta = List.length systs /\
  index_of key (params ++ systs) = Some i /\ nth_error (poi ++ nui ++ theta) i = Some v /\ limit_value npoi params systs poi theta key = Ok w /\ v <> w.
Proof.
  exists 1%nat, ["mu"; "n"], ["a"; "b"], [3], [7], [4; 5], "n", 1%nat, 7, 5. split; [|repeat split; lra].
  repeat constructor; cbn; intuition discriminate.
Qed.

(** * C80 *)
Theorem C80_dataset_partial env dr o keys values variances x1 x2 c s a d : limit_states env dr o keys 0 values variances x1 x2 c s = Ok (a, d) ->
  f_nobs d = values /\ f_x d = x2 /\ exists p, prefit_state env dr o 0 values variances s = Ok p /\ f_nobs d = f_nobs p /\ f_nobs a = expected_yield env false (set_x p x1).
Proof.
  intros H. apply states_data in H; [|lia]. destruct H as (A & B & C & p & P & Q & _). split; auto. split; auto. exists p. split; auto. split; auto.
  unfold prefit_state in P. cbn [Z.eqb] in P. apply set_nobs_ok in P. destruct P as (-> & _). auto.
Qed.
Theorem C80_asimov env dr o keys values variances x1 x2 c s a d : limit_states env dr o keys (-1) values variances x1 x2 c s = Ok (a, d) ->
  a = d /\ exists p, prefit_state env dr o (-1) values variances s = Ok p /\ f_nobs d = f_nobs p /\ f_x d = f_x p.
Proof. exact (states_asimov env dr o keys values variances x1 x2 c s a d). Qed.
(** for toys the observed limit is the one of the data, with the centres of the toy *)
Theorem C80_toy env dr o keys f values variances x1 x2 c s a d : (0 <= f)%Z -> limit_states env dr o keys f values variances x1 x2 c s = Ok (a, d) ->
  f_nobs d = values /\ exists p, prefit_state env dr o f values variances s = Ok p /\ f_x0 d = f_x0 p.
Proof. intros F H. apply states_data in H; auto. destruct H as (A & _ & _ & p & P & _ & _ & _ & Q). split; auto. exists p. auto. Qed.
Definition ex_lim (f : Z) := limit_states (ex_env lit) ex_draws ex_opts ["mu"] f [20] None [1; 2; 3] [4; 5; 6] None (ex_state lit).
Lemma ex_lim_ok f : (f = 0 \/ f = 1)%Z -> exists a d, ex_lim f = Ok (a, d).
Proof. assert (K : forall r : result (fstate * fstate), match r with Ok _ => True | Raise _ => False end -> exists a d, r = Ok (a, d)) by (intros [[a d]|]; [eauto|intros []]). intros [-> | ->]; apply K; exact I. Qed.
Theorem C80_toy_refuted : exists env dr o keys f values variances x1 x2 c s a d p, (1 <= f)%Z /\ limit_states env dr o keys f values variances x1 x2 c s = Ok (a, d) /\
  prefit_state env dr o f values variances s = Ok p /\ f_nobs d <> f_nobs p.
Proof.
  exists (ex_env lit), ex_draws, ex_opts, ["mu"], 1%Z, [20], None, [1; 2; 3], [4; 5; 6], None, (ex_state lit).
  destruct (ex_lim_ok 1) as (a & d & E); [lia|]. exists a, d. eexists. split; [lia|]. split; [exact E|]. split; [reflexivity|]. apply states_data in E; [|lia]. destruct E as (-> & _). cbn. intros H. injection H. lra.
Qed.
(** the data fits of the limits are not blinded *)
Theorem C80_unblinded env dr o keys f values variances x1 x2 c s a d : (0 <= f)%Z -> v_doblind env = true -> limit_states env dr o keys f values variances x1 x2 c s = Ok (a, d) -> f_off d = neutral env /\ f_off a = neutral env.
Proof. intros F B H. apply states_data in H; auto. destruct H as (_ & _ & _ & p & P & _ & Q & -> & _). rewrite Q. apply prefit_off in P; auto. Qed.
Theorem C80_blinding_refuted : exists env dr o keys values variances x1 x2 c s a d p, limit_states env dr o keys 0 values variances x1 x2 c s = Ok (a, d) /\ blinded_fit o 0 = true /\ v_doblind env = true /\
  start_state env dr o 0 values variances s = Ok p /\ f_off d <> f_off p.
Proof.
  exists (ex_env lit), ex_draws, ex_opts, ["mu"], [20], None, [1; 2; 3], [4; 5; 6], None, (ex_state lit).
  destruct (ex_lim_ok 0) as (a & d & E); [lia|]. exists a, d. eexists. split; [exact E|]. split; [reflexivity|]. split; [reflexivity|]. split; [reflexivity|]. apply C80_unblinded in E; [|lia|reflexivity]. destruct E as (-> & _). cbn. intros H. injection H. intros. lra.
Qed.
Example C80_example : exists a d, ex_lim 0 = Ok (a, d) /\ f_nobs d = [20] /\ f_x a = [1; 2; 3] /\ f_x d = [4; 5; 6].
Proof. destruct (ex_lim_ok 0) as (a & d & E); [lia|]. exists a, d. split; auto. apply states_data in E; [|lia]. intuition. Qed.
Print Assumptions C55_unpack_pack.
Print Assumptions C55_pack_unpack.
Print Assumptions C55_unpack_total.
Print Assumptions C55_lengths_refuted.
Print Assumptions C77_gradient_partial.
Print Assumptions C77_true_gradient.
Print Assumptions C77_gradient_wrong.
Print Assumptions C77_gradient_refuted.
Print Assumptions C77_objective_wrong.
Print Assumptions C77_objective_refuted.
Print Assumptions C78_root.
Print Assumptions C78_bands_partial.
Print Assumptions C78_level.
Print Assumptions C78_zero_refuted.
Print Assumptions C78_positive_error.
Print Assumptions C78_limit.
Print Assumptions C78_normal.
Print Assumptions C78_negative.
Print Assumptions C78_bands_negative_refuted.
Print Assumptions C79_value_partial.
Print Assumptions C79_missing.
Print Assumptions C79_value_refuted.
Print Assumptions C80_dataset_partial.
Print Assumptions C80_asimov.
Print Assumptions C80_toy.
Print Assumptions C80_toy_refuted.
Print Assumptions C80_unblinded.
Print Assumptions C80_blinding_refuted.
