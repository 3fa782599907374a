(** C95: the curvature of the L-curve. *)
From Coq Require Import Reals List Arith Bool Lra Lia FunctionalExtensionality.
From Verif Require Import PyList RBase Mat_Model Mat_Proof Linear_Proof LCurve_Model LCurve_Spec LCurve_Proof.
Import ListNotations.
Open Scope R_scope.

(** Without external terms, and where the stored nuisances of the bin-by-bin statistics are the profiled ones at every point (fixed = prof),
    the result at a minimum is the curvature of the curve of the logarithms of the data term and of the penalty along the minima. *)
Theorem C95_curvature n s path path1 path2 t : s_ext s = None -> s_fixed s = Some (s_prof s) -> s_regs s <> [] ->
  smooth n (fval (s_prof s)) (fgrad (s_prof s)) (fhess (s_prof s)) -> (forall f, In f (s_regs s) -> smooth n (fval f) (fgrad f) (fhess f)) ->
  minima (fval (s_prof s)) (fval (penalty s)) path ->
  (forall u i, (i < n)%nat -> derivable_pt_lim (fun u => path u i) u (path1 u i)) -> (forall i, (i < n)%nat -> derivable_pt_lim (fun u => path1 u i) t (path2 i)) ->
  (forall u, 0 < fval (s_prof s) (path u)) -> (forall u, 0 < fval (penalty s) (path u)) ->
  posdef n (hessian s (path t) t) -> nonzero n (fgrad (penalty s) (path t)) ->
  exists k, compute_curvature n s (path t) t = Ok (Some k) /\
    is_curvature (fun u => ln (fval (s_prof s) (path u))) (fun u => ln (fval (penalty s) (path u))) t k.
Proof.
  intros X FX RG SF SR M D1 D2 PF PP PD NZ. assert (E : loss s = s_prof s) by (unfold loss; rewrite X; auto).
  rewrite <- E in FX, SF, M, PF |- *. apply (curvature_right n s path path1 path2 t); auto.
Qed.
Theorem C95_unique X Y t k k' : is_curvature X Y t k -> is_curvature X Y t k' -> k = k'.
Proof. exact (curvature_unique X Y t k k'). Qed.
(** A stronger regularisation strictly raises the data term and strictly lowers the penalty; the slope of the curve is fixed by both. *)
Theorem C95_tradeoff n s path path1 t : smooth n (fval (loss s)) (fgrad (loss s)) (fhess (loss s)) -> (forall f, In f (s_regs s) -> smooth n (fval f) (fgrad f) (fhess f)) ->
  minima (fval (loss s)) (fval (penalty s)) path -> (forall u i, (i < n)%nat -> derivable_pt_lim (fun u => path u i) u (path1 u i)) ->
  (forall u, 0 < fval (loss s) (path u)) -> (forall u, 0 < fval (penalty s) (path u)) ->
  posdef n (hessian s (path t) t) -> nonzero n (fgrad (penalty s) (path t)) ->
  exists X1 Y1, derivable_pt_lim (fun u => ln (fval (loss s) (path u))) t X1 /\ derivable_pt_lim (fun u => ln (fval (penalty s) (path u))) t Y1 /\
    0 < X1 /\ Y1 < 0 /\ fval (loss s) (path t) * X1 + exp (2 * t) * (fval (penalty s) (path t) * Y1) = 0.
Proof. intros. eapply tradeoff; eauto. Qed.
(** dxdtau solves the linear system of the implicit differentiation, and the autodiff of it is its derivative at fixed parameters *)
Theorem C95_autodiff n s x t L (G : R -> nat -> R) (d : nat -> R) : sym n (hessian s x t) -> chol n (hessian s x t) = Some L ->
  (forall u i, (i < n)%nat -> mv n (hessian s x u) (G u) i = - mixed s x u i) -> (forall i, (i < n)%nat -> derivable_pt_lim (fun u => G u i) t (d i)) ->
  forall i, (i < n)%nat -> dxdtau n L s x t i = G t i /\ dxdtau2 n L s x t i = d i.
Proof. exact (dxdtau_tau n s x t L G d). Qed.
(** every value of a scan is the curvature at the minimum found for its strength, the minimisations starting from one another *)
Theorem C95_scan n minimize s taus x vs y : scan_tau n minimize s taus x = Ok (vs, y) ->
  exists xs, List.length xs = List.length taus /\ List.length vs = List.length taus /\
    forall i, (i < List.length taus)%nat -> nth i xs x = minimize (nth i taus 0) (match i with O => x | S j => nth j xs x end) /\
      compute_curvature n s (nth i xs x) (nth i taus 0) = Ok (nth i vs None).
Proof. exact (scan_spec n minimize s taus x vs y). Qed.
(** the optimisation ends after 50 rounds, or where the derivative at fixed parameters is small and the second one not negative *)
Theorem C95_optimise minimize vgh tau x : more (o_edm (optimise minimize vgh tau x)) = false ->
  o_grad (optimise minimize vgh tau x) * o_grad (optimise minimize vgh tau x)
    <= 2 * (/ 10000000000000000) * Rmax (Rabs (o_hess (optimise minimize vgh tau x))) (/ 100000000) /\
  (o_grad (optimise minimize vgh tau x) = 0 \/ 0 <= o_hess (optimise minimize vgh tau x)).
Proof. exact (optimise_end minimize vgh tau x). Qed.
(** with one parameter the curvature at fixed x does not depend on the strength, so that its derivative vanishes *)
Theorem C95_one_parameter s x t1 t2 : 0 < hessian s x t1 O O -> 0 < hessian s x t2 O O -> compute_curvature 1 s x t1 = compute_curvature 1 s x t2.
Proof. exact (one_parameter s x t1 t2). Qed.
(** without bin-by-bin statistics there is no curvature, neither with a frozen parameter *)
Theorem C95_no_bbb n s x t : s_fixed s = None -> exists e, compute_curvature n s x t = Raise e.
Proof. intros H. unfold compute_curvature. rewrite H. destruct (chol _ _); [destruct (s_regs s)|]; eauto. Qed.
Theorem C95_frozen n s x t k : (k < n)%nat -> sym n (hessian s x t) -> (forall j, (j < n)%nat -> hessian s x t k j = 0) -> compute_curvature n s x t = Raise GenericException.
Proof.
  intros Hk SY Z. unfold compute_curvature. destruct (chol n (hessian s x t)) as [L|] eqn:E; auto. exfalso.
  apply (zero_row_not_posdef n (hessian s x t) k Hk Z). apply chol_posdef; eauto.
Qed.

(** *** examples *)
(** one parameter *)
Definition ridge (d : fn) (ext : option fn) (fixed : option fn) : setup := mkSetup d ext [quadr 0 1 0 0] fixed.
Definition line (c a : R) (u : R) (i : nat) : R := qmin c a u.
Definition line1 (c a : R) (u : R) (i : nat) : R := qmin1 c a u.
Lemma ridge_min c a b ext fixed : 0 < c -> minima (fval (quadr 0 c a b)) (fval (penalty (ridge (quadr 0 c a b) ext fixed))) (line c a).
Proof.
  intros H t y. assert (E := exp_pos (2 * t)). cbn. unfold line, qmin. set (e := exp (2 * t)) in *.
  apply Rminus_le. match goal with |- ?l <= 0 => replace l with (- ((c + e) / 2 * ((y O - c * a / (c + e)) * (y O - c * a / (c + e))))) by (field; lra) end.
  assert (X := Rle_0_sqr (y O - c * a / (c + e))). unfold Rsqr in X.
  assert (0 <= (c + e) / 2 * ((y O - c * a / (c + e)) * (y O - c * a / (c + e)))) by (apply Rmult_le_pos; lra). lra.
Qed.
Lemma ridge_pos c a b ext fixed u : 0 < c -> a <> 0 -> 0 < fval (penalty (ridge (quadr 0 c a b) ext fixed)) (line c a u).
Proof.
  intros H A. cbn. unfold line, qmin. assert (E := exp_pos (2 * u)). assert (N : c * a / (c + exp (2 * u)) <> 0).
  { unfold Rdiv. apply Rmult_integral_contrapositive_currified; [|apply Rinv_neq_0_compat; lra]. apply Rmult_integral_contrapositive_currified; lra. }
  assert (X := Rsqr_pos_lt _ N). unfold Rsqr in X. rewrite Rminus_0_r. lra.
Qed.
Lemma ridge_posdef c a b fixed x t : 0 < c -> posdef 1 (hessian (ridge (quadr 0 c a b) None fixed) x t).
Proof.
  intros H z (i & Hi & N). replace i with O in N by lia. unfold quad, mv, hessian. cbn. unfold delta. cbn. assert (E := exp_pos (2 * t)).
  assert (0 < z O * z O) by (apply Rsqr_pos_lt; auto).
  match goal with |- 0 < ?l => replace l with ((c + exp (2 * t)) * (z O * z O)) by ring end. apply Rmult_lt_0_compat; lra.
Qed.
Lemma ridge_nonzero c a b ext fixed t : 0 < c -> a <> 0 -> nonzero 1 (fgrad (penalty (ridge (quadr 0 c a b) ext fixed)) (line c a t)).
Proof.
  intros H A. exists O. split; [lia|]. cbn. unfold delta, line, qmin. cbn. assert (E := exp_pos (2 * t)). intros Z.
  assert (N : c * a / (c + exp (2 * t)) <> 0).
  { unfold Rdiv. apply Rmult_integral_contrapositive_currified; [|apply Rinv_neq_0_compat; lra]. apply Rmult_integral_contrapositive_currified; lra. }
  apply N. lra.
Qed.
Lemma ridge_regs c a b ext fixed f : In f (s_regs (ridge (quadr 0 c a b) ext fixed)) -> smooth 1 (fval f) (fgrad f) (fhess f).
Proof. intros [<-|[]]. apply quadr_smooth. lia. Qed.
Theorem ridge_ok c a b t : 0 < c -> a <> 0 -> 0 < b -> let s := ridge (quadr 0 c a b) None (Some (quadr 0 c a b)) in
  exists k, compute_curvature 1 s (line c a t) t = Ok (Some k) /\
    is_curvature (fun u => ln (fval (s_prof s) (line c a u))) (fun u => ln (fval (penalty s) (line c a u))) t k.
Proof.
  intros H A B s. apply (C95_curvature 1 s (line c a) (line1 c a) (fun _ => qmin2 c a t) t); try reflexivity; try discriminate.
  - apply quadr_smooth. lia.
  - apply ridge_regs.
  - apply ridge_min. auto.
  - intros u i _. apply d_qmin. auto.
  - intros i _. apply d_qmin1. auto.
  - intros u. cbn. assert (X := Rle_0_sqr (line c a u O - a)). unfold Rsqr in X. nra.
  - intros u. apply ridge_pos; auto.
  - apply ridge_posdef. auto.
  - apply ridge_nonzero; auto.
Qed.
(** the value for given numbers *)
Lemma ridge_value c a b d t d2 : 0 < c -> a <> 0 -> 0 < b -> 0 < fval d (line c a t) -> let s := ridge (quadr 0 c a b) None (Some d) in
  (c + exp (2 * t)) * d2 = - (4 * exp (2 * t) * qmin c a t + 2 * exp (2 * t) * qmin1 c a t) ->
  compute_curvature 1 s (line c a t) t = Ok (curv (first 1 (flog d) (line c a t) (line1 c a t)) (first 1 (flog (penalty s)) (line c a t) (line1 c a t))
      (second 1 (flog d) (line c a t) (line1 c a t) (fun _ => d2)) (second 1 (flog (penalty s)) (line c a t) (line1 c a t) (fun _ => d2))).
Proof.
  intros H A B D s E. apply (evaluate 1 s (line c a) (line1 c a) t); try reflexivity; try discriminate; auto.
  - apply quadr_smooth. lia.
  - apply ridge_regs.
  - apply ridge_min. auto.
  - intros u i _. apply d_qmin. auto.
  - intros u. apply ridge_pos; auto.
  - apply ridge_posdef. auto.
  - intros i Hi. replace i with O by lia. unfold mv, hessian. cbn. unfold delta, line, line1. cbn. lra.
Qed.
Lemma e20 : exp (2 * 0) = 1. Proof. rewrite Rmult_0_r. apply exp_0. Qed.
Ltac num := unfold first, second, vdot, mv, flog, penalty, ridge, add_n; cbn [fval fgrad fhess sm fold_right s_regs s_prof]; unfold quadr, fplus, fzero; cbn [fval fgrad fhess]; unfold delta; cbn [Nat.eqb].
Lemma curv_sign x1 y1 x2 y2 k : curv x1 y1 x2 y2 = Some k -> k * Rpower (x1 * x1 + y1 * y1) (3 / 2) = y2 * x1 - x2 * y1.
Proof.
  unfold curv. cbv zeta. destruct (Reqb_spec (x1 * x1 + y1 * y1) 0); [discriminate|]. intros E. injection E as <-.
  assert (0 < Rpower (x1 * x1 + y1 * y1) (3 / 2)) by apply exp_pos. field. lra.
Qed.
Lemma q25 : line (3 / 2) (2 / 3) 0 O = 2 / 5. Proof. unfold line, qmin. rewrite e20. field. Qed.
Lemma g25 : line1 (3 / 2) (2 / 3) 0 O = - 8 / 25. Proof. unfold line1, qmin1. rewrite e20. field. Qed.
Example C95_ex : exists k, compute_curvature 1 (ridge (quadr 0 (3 / 2) (2 / 3) (2 / 3)) None (Some (quadr 0 (3 / 2) (2 / 3) (2 / 3)))) (line (3 / 2) (2 / 3) 0) 0 = Ok (Some k) /\ 0 < k /\
  is_curvature (fun u => ln (3 / 4 * ((qmin (3 / 2) (2 / 3) u - 2 / 3) * (qmin (3 / 2) (2 / 3) u - 2 / 3)) + 2 / 3))
               (fun u => ln (/ 2 * (qmin (3 / 2) (2 / 3) u * qmin (3 / 2) (2 / 3) u))) 0 k.
Proof.
  destruct (ridge_ok (3 / 2) (2 / 3) (2 / 3) 0 ltac:(lra) ltac:(lra) ltac:(lra)) as (k & E & C). exists k. split; [exact E|]. split.
  - rewrite (ridge_value (3 / 2) (2 / 3) (2 / 3) _ 0 (- 48 / 125)) in E; try lra.
    + injection E as E. apply curv_sign in E. revert E. num. rewrite q25, g25. intros E.
      match type of E with k * Rpower ?d _ = ?r => assert (P : 0 < Rpower d (3 / 2)) by apply exp_pos; assert (RV : r = 128 / 2025) by (field; lra); rewrite RV in E; set (D := Rpower d (3 / 2)) in * end.
      apply Rmult_lt_reg_r with D; auto. lra.
    + num. rewrite q25. lra.
    + unfold qmin, qmin1. rewrite e20. field.
  - match goal with |- is_curvature ?X ?Y _ _ => match type of C with is_curvature ?X' ?Y' _ _ => replace X with X'; [replace Y with Y'; [exact C|]|] end end.
    + apply functional_extensionality. intros u. cbn. unfold line. f_equal. lra.
    + apply functional_extensionality. intros u. cbn. unfold line. f_equal. lra.
Qed.

(** *** refuted *)
(** with bin-by-bin statistics the curve holds the nuisances beta fixed while the fit profiles them: here the data term G(x, beta) of one bin with
    observation 2 and Monte-Carlo uncertainty 1 and one constraint; the sign of the curvature is wrong *)
Theorem C95_profiled_refuted : exists (G : R -> R -> R) s d path k k', s_ext s = None /\ s_fixed s = Some d /\
  (forall x b, fval (s_prof s) x <= G (x O) b) /\ (forall x, exists b, fval (s_prof s) x = G (x O) b) /\ (forall x, fval d x = G (x O) 0) /\
  minima (fval (s_prof s)) (fval (penalty s)) path /\ compute_curvature 1 s (path 0) 0 = Ok (Some k) /\
  is_curvature (fun u => ln (fval (s_prof s) (path u))) (fun u => ln (fval (penalty s) (path u))) 0 k' /\ k < 0 < k'.
Proof.
  exists (fun x b => / 2 * ((x + b - 2) * (x + b - 2)) + / 2 * (b * b) + / 2 * (x * x)),
    (ridge (quadr 0 (3 / 2) (2 / 3) (2 / 3)) None (Some (quadr 0 2 1 1))), (quadr 0 2 1 1), (line (3 / 2) (2 / 3)).
  destruct C95_ex as (k' & E' & P' & C').
  destruct (ridge_ok (3 / 2) (2 / 3) (2 / 3) 0 ltac:(lra) ltac:(lra) ltac:(lra)) as (k2 & E2 & C2). rewrite E' in E2. injection E2 as <-.
  assert (V := ridge_value (3 / 2) (2 / 3) (2 / 3) (quadr 0 2 1 1) 0 (- 48 / 125) ltac:(lra) ltac:(lra) ltac:(lra)).
  assert (D : 0 < fval (quadr 0 2 1 1) (line (3 / 2) (2 / 3) 0)) by (num; rewrite q25; lra). specialize (V D). cbv zeta in V.
  specialize (V ltac:(unfold qmin, qmin1; rewrite e20; field)).
  match type of V with _ = Ok ?c => destruct c as [k|] eqn:K end.
  - exists k, k'. split; [reflexivity|]. split; [reflexivity|]. split; [|split; [|split; [|split; [|split; [|split]]]]].
    + intros x b. cbn. assert (X := Rle_0_sqr (b - (2 - x O) / 2)). unfold Rsqr in X. lra.
    + intros x. exists ((2 - x O) / 2). cbn. field.
    + intros x. cbn. field.
    + apply ridge_min. lra.
    + exact V.
    + exact C2.
    + split; [|exact P']. apply curv_sign in K. revert K. num. rewrite q25, g25. intros E.
      match type of E with k * Rpower ?d _ = ?r => assert (P : 0 < Rpower d (3 / 2)) by apply exp_pos; assert (RV : r = - (1792 / 7225)) by (field; lra); rewrite RV in E; set (DD := Rpower d (3 / 2)) in * end.
      apply Rmult_lt_reg_r with DD; auto. lra.
  - exfalso. revert K. unfold curv. cbv zeta. match goal with |- (if Reqb ?d 0 then _ else _) = _ -> _ => assert (0 < d); [|destruct (Reqb_spec d 0); [lra|discriminate]] end.
    num. rewrite q25, g25. lra.
Qed.
(** an exact minimum without penalty, as for data equal to the expectation: no number *)
Theorem C95_asimov_refuted : exists s path, s_ext s = None /\ s_fixed s = Some (s_prof s) /\ minima (fval (s_prof s)) (fval (penalty s)) path /\
  forall t, compute_curvature 1 s (path t) t = Ok None.
Proof.
  exists (mkSetup (quadr 0 1 1 0) None [quadr 0 1 1 0] (Some (quadr 0 1 1 0))), (fun _ _ => 1). split; auto. split; auto. split.
  - intros t y. cbn. assert (E := exp_pos (2 * t)). assert (X := Rle_0_sqr (y O - 1)). unfold Rsqr in X. nra.
  - intros t. unfold compute_curvature. cbn [s_regs s_fixed].
    assert (H : exists L, chol 1 (hessian (mkSetup (quadr 0 1 1 0) None [quadr 0 1 1 0] (Some (quadr 0 1 1 0))) (fun _ => 1) t) = Some L).
    { apply chol_posdef; [intros i j Hi Hj; replace i with O by lia; replace j with O by lia; auto|]. intros z (i & Hi & N). replace i with O in N by lia.
      unfold quad, mv, hessian. cbn. unfold delta. cbn. assert (E := exp_pos (2 * t)). assert (0 < z O * z O) by (apply Rsqr_pos_lt; auto).
      match goal with |- 0 < ?l => replace l with ((1 + exp (2 * t)) * (z O * z O)) by ring end. apply Rmult_lt_0_compat; lra. }
    destruct H as [L ->]. cbn [fval quadr]. destruct (Rleb_spec (1 / 2 * ((1 - 1) * (1 - 1)) + 0) 0); [auto|]. exfalso. lra.
Qed.
(** the derivative with respect to the strength is taken at fixed parameters: with one parameter the optimisation never moves, whatever the curvature *)
Definition value_at (s : setup) (x : nat -> R) (u : R) : R := match compute_curvature 1 s x u with Ok (Some k) => k | _ => 0 end.
Theorem C95_optimise_refuted : exists s path t1 t2 k1 k2,
  is_curvature (fun u => ln (fval (s_prof s) (path u))) (fun u => ln (fval (penalty s) (path u))) t1 k1 /\
  is_curvature (fun u => ln (fval (s_prof s) (path u))) (fun u => ln (fval (penalty s) (path u))) t2 k2 /\ k1 <> k2 /\
  forall minimize vgh, (forall tau x v g h, vgh tau x = (v, g, h) -> derivable_pt_lim (fun u => - value_at s x u) tau g) ->
  forall tau x, fst (optimize_tau minimize vgh tau x) = tau.
Proof.
  exists (ridge (quadr 0 1 1 (/ 2)) None (Some (quadr 0 1 1 (/ 2)))), (line 1 1), 0, (ln 2 / 2).
  assert (X2 : exp (2 * (ln 2 / 2)) = 2) by (replace (2 * (ln 2 / 2)) with (ln 2) by field; apply exp_ln; lra).
  destruct (ridge_ok 1 1 (/ 2) 0 ltac:(lra) ltac:(lra) ltac:(lra)) as (k1 & E1 & C1).
  destruct (ridge_ok 1 1 (/ 2) (ln 2 / 2) ltac:(lra) ltac:(lra) ltac:(lra)) as (k2 & E2 & C2).
  exists k1, k2. split; [exact C1|]. split; [exact C2|]. split.
  - intros EQ. subst k2.
    assert (Q1 : line 1 1 0 O = / 2) by (unfold line, qmin; rewrite e20; field). assert (G1 : line1 1 1 0 O = - / 2) by (unfold line1, qmin1; rewrite e20; field).
    assert (Q2 : line 1 1 (ln 2 / 2) O = / 3) by (unfold line, qmin; rewrite X2; field). assert (G2 : line1 1 1 (ln 2 / 2) O = - 4 / 9) by (unfold line1, qmin1; rewrite X2; field).
    rewrite (ridge_value 1 1 (/ 2) _ 0 (- / 2)) in E1; try lra; [|num; rewrite Q1; lra|unfold qmin, qmin1; rewrite e20; field].
    rewrite (ridge_value 1 1 (/ 2) _ (ln 2 / 2) (- 8 / 27)) in E2; try lra; [|num; rewrite Q2; lra|unfold qmin, qmin1; rewrite X2; field].
    injection E1 as E1. injection E2 as E2. apply curv_sign in E1, E2. revert E1 E2. num. rewrite Q1, G1, Q2, G2. intros E1 E2.
    match type of E1 with k1 * Rpower ?d _ = ?r => assert (V : d = 104 / 25) by (field; lra); assert (W : r = - (8 / 25)) by (field; lra); rewrite V, W in E1; clear V W end.
    match type of E2 with k1 * Rpower ?d _ = ?r => assert (V : d = 11072 / 1521) by (field; lra); assert (W : r = - (1792 / 1521)) by (field; lra); rewrite V, W in E2; clear V W end.
    match type of E1 with k1 * Rpower ?d _ = ?r => assert (D1 : Rpower d (3 / 2) * Rpower d (3 / 2) = d * d * d) by (apply Rpower_32_sq; lra); set (p1 := Rpower d (3 / 2)) in *; assert (R1 : k1 * p1 * (k1 * p1) = r * r) by (rewrite E1; auto) end.
    match type of E2 with k1 * Rpower ?d _ = ?r => assert (D2 : Rpower d (3 / 2) * Rpower d (3 / 2) = d * d * d) by (apply Rpower_32_sq; lra); set (p2 := Rpower d (3 / 2)) in *; assert (R2 : k1 * p2 * (k1 * p2) = r * r) by (rewrite E2; auto) end.
    assert (S1 : k1 * p1 * (k1 * p1) = k1 * k1 * (p1 * p1)) by ring. assert (S2 : k1 * p2 * (k1 * p2) = k1 * k1 * (p2 * p2)) by ring.
    rewrite D1 in S1. rewrite D2 in S2. rewrite R1 in S1. rewrite R2 in S2. clear E1 E2 D1 D2 R1 R2. set (kk := k1 * k1) in *. lra.
  - intros minimize vgh HV tau x. unfold optimize_tau. cbn [fst]. apply optimise_rest. intros v g h y E. apply HV in E.
    apply (uniqueness_limite (fun u => - value_at (ridge (quadr 0 1 1 (/ 2)) None (Some (quadr 0 1 1 (/ 2)))) y u) tau); auto.
    assert (CST : forall u, value_at (ridge (quadr 0 1 1 (/ 2)) None (Some (quadr 0 1 1 (/ 2)))) y u = value_at (ridge (quadr 0 1 1 (/ 2)) None (Some (quadr 0 1 1 (/ 2)))) y tau).
    { intros u. unfold value_at. rewrite (one_parameter _ y u tau); auto; unfold hessian; cbn; unfold delta; cbn; assert (X := exp_pos (2 * u)); assert (Y := exp_pos (2 * tau)); lra. }
    intros e He. exists (mkposreal 1 Rlt_0_1). intros h0 H0 _. rewrite (CST (tau + h0)).
    match goal with |- Rabs ?z < e => replace z with 0 by (field; auto) end. rewrite Rabs_R0. auto.
Qed.
(** what is reported as the largest curvature is its negative *)
Theorem C95_sign_refuted : exists (f : R -> R) vgh, (forall u, f u <= f 0) /\ 0 < f 0 /\
  (forall u x, fst (fst (vgh u x)) = - f u /\ derivable_pt_lim (fun u => - f u) u (snd (fst (vgh u x)))) /\ forall minimize x, optimize_tau minimize vgh 1 x = (0, - f 0).
Proof.
  exists (fun u => 1 - u * u), (fun u _ => (u * u - 1, 2 * u, 2)). split; [intros u; assert (X := Rle_0_sqr u); unfold Rsqr in X; lra|]. split; [lra|]. split.
  - intros u _. cbn. split; [ring|].
    assert (X : derivable_pt_lim (fun u => u * u - 1) u (1 * u + u * 1 - 0)).
    { apply (derivable_pt_lim_minus (fun u => u * u) (fun _ => 1)); [apply (derivable_pt_lim_mult id id); apply derivable_pt_lim_id|apply derivable_pt_lim_const]. }
    replace (fun u => - (1 - u * u)) with (fun u : R => u * u - 1) by (apply functional_extensionality; intros; ring). replace (2 * u) with (1 * u + u * 1 - 0) by ring. exact X.
  - intros minimize x. set (vgh := fun (u : R) (_ : nat -> R) => (u * u - 1, 2 * u, 2)).
    assert (SH : safe_hess 2 = 2).
    { unfold safe_hess, sign. destruct (Rltb_spec 2 0); [lra|]. rewrite Rabs_right by lra. rewrite Rmax_left by lra. ring. }
    assert (E1 : o_tau (newton minimize vgh 1 x) = 0 /\ more (o_edm (newton minimize vgh 1 x)) = true).
    { unfold newton, vgh. cbn [o_tau o_edm]. rewrite SH. split; [field|]. unfold more. replace (1 / 2 * (2 * 1) * (2 * 1 / 2)) with 1 by field.
      destruct (Rltb_spec 1 0); auto. destruct (Rltb_spec (/ 10000000000000000) 1); auto. lra. }
    destruct E1 as [T1 M1].
    assert (L : optimise minimize vgh 1 x = newton minimize vgh 0 (o_x (newton minimize vgh 1 x))).
    { unfold optimise. rewrite (loop_step minimize vgh 48). rewrite M1, T1. apply loop_stop. unfold newton at 1, vgh at 1. cbn [o_edm]. rewrite SH. unfold more. replace (1 / 2 * (2 * 0) * (2 * 0 / 2)) with 0 by field.
      destruct (Rltb_spec 0 0); [lra|]. destruct (Rltb_spec (/ 10000000000000000) 0); [lra|auto]. }
    unfold optimize_tau. rewrite L. generalize (o_x (newton minimize vgh 1 x)). intros y. unfold newton, vgh. cbn [o_tau o_val]. rewrite SH. f_equal; field.
Qed.
(** the step also goes to a minimum of the curvature *)
Theorem C95_minimum_refuted : exists (f : R -> R) vgh, (forall u, u <> 0 -> f 0 < f u) /\
  (forall u x, fst (fst (vgh u x)) = - f u) /\ (forall u x, derivable_pt_lim (fun u => - f u) u (snd (fst (vgh u x)))) /\ (forall u x, derivable_pt_lim (fun u => snd (fst (vgh u x))) u (snd (vgh u x))) /\
  forall minimize tau x, fst (optimize_tau minimize vgh tau x) = 0.
Proof.
  exists (fun u => / 2 * (u * u)), (fun u _ => (- (/ 2 * (u * u)), - u, -1)).
  assert (DI : forall u, derivable_pt_lim (fun u : R => - u) u (-1)).
  { intros u. replace (-1) with (- (1)) by ring. apply (derivable_pt_lim_opp id). apply derivable_pt_lim_id. }
  split; [intros u H; assert (X := Rsqr_pos_lt _ H); unfold Rsqr in X; lra|]. split; [intros; cbn; ring|]. split; [|split; [intros; cbn; apply DI|]].
  - intros u _. cbn. replace (- u) with (- (/ 2 * (1 * u + u * 1))) by field. apply (derivable_pt_lim_opp (fun u => / 2 * (u * u))).
    apply (derivable_pt_lim_scal (fun u => u * u)). apply (derivable_pt_lim_mult id id); apply derivable_pt_lim_id.
  - intros minimize tau x. set (vgh := fun (u : R) (_ : nat -> R) => (- (/ 2 * (u * u)), - u, -1)).
    assert (SH : safe_hess (-1) = -1).
    { unfold safe_hess, sign. destruct (Rltb_spec (-1) 0); [|lra]. rewrite Rabs_left by lra. rewrite Rmax_left by lra. ring. }
    assert (T : forall t y, o_tau (newton minimize vgh t y) = 0) by (intros t y; unfold newton, vgh; cbn [o_tau]; rewrite SH; field).
    assert (LP : forall k o, o_tau o = 0 -> o_tau (opt_loop minimize vgh k o) = 0).
    { induction k as [|k IH]; intros o H; cbn [opt_loop]; auto. destruct (more (o_edm o)); auto. }
    unfold optimize_tau. cbn [fst]. apply LP, T.
Qed.

(** *** two parameters and two regularizers *)
Definition two_f : fn := fplus (quadr 0 1 1 1) (quadr 1 3 1 0).
Definition two_regs : list fn := [quadr 0 1 0 0; quadr 1 1 0 0].
Definition two (u : R) (i : nat) : R := match i with O => qmin 1 1 u | _ => qmin 3 1 u end.
Definition two1 (u : R) (i : nat) : R := match i with O => qmin1 1 1 u | _ => qmin1 3 1 u end.
Definition two2 (u : R) (i : nat) : R := match i with O => qmin2 1 1 u | _ => qmin2 3 1 u end.
Section Two.
  Variable s : setup.
  Hypothesis LS : loss s = two_f.
  Hypothesis RG : s_regs s = two_regs.
  Lemma two_smooth : smooth 2 (fval (loss s)) (fgrad (loss s)) (fhess (loss s)).
  Proof. rewrite LS. apply (smooth_plus 2 (quadr 0 1 1 1) (quadr 1 3 1 0)); apply quadr_smooth; lia. Qed.
  Lemma two_regs_smooth f : In f (s_regs s) -> smooth 2 (fval f) (fgrad f) (fhess f).
  Proof. rewrite RG. intros [<-|[<-|[]]]; apply quadr_smooth; lia. Qed.
  Lemma two_min : minima (fval (loss s)) (fval (penalty s)) two.
  Proof.
    unfold penalty. rewrite LS, RG. intros t y. cbn. assert (E := exp_pos (2 * t)). unfold qmin. set (e := exp (2 * t)) in *.
    apply Rminus_le. match goal with |- ?l <= 0 => replace l with (- ((1 + e) / 2 * ((y O - 1 * 1 / (1 + e)) * (y O - 1 * 1 / (1 + e))) + (3 + e) / 2 * ((y 1%nat - 3 * 1 / (3 + e)) * (y 1%nat - 3 * 1 / (3 + e))))) by (field; lra) end.
    assert (X := Rle_0_sqr (y O - 1 * 1 / (1 + e))). assert (Y := Rle_0_sqr (y 1%nat - 3 * 1 / (3 + e))). unfold Rsqr in X, Y.
    assert (0 <= (1 + e) / 2 * ((y O - 1 * 1 / (1 + e)) * (y O - 1 * 1 / (1 + e)))) by (apply Rmult_le_pos; lra).
    assert (0 <= (3 + e) / 2 * ((y 1%nat - 3 * 1 / (3 + e)) * (y 1%nat - 3 * 1 / (3 + e)))) by (apply Rmult_le_pos; lra). lra.
  Qed.
  Lemma two_d1 u i : (i < 2)%nat -> derivable_pt_lim (fun u => two u i) u (two1 u i).
  Proof. intros H. destruct i as [|i]; apply d_qmin; lra. Qed.
  Lemma two_d2 u i : (i < 2)%nat -> derivable_pt_lim (fun u => two1 u i) u (two2 u i).
  Proof. intros H. destruct i as [|i]; apply d_qmin1; lra. Qed.
  Lemma two_pos u : 0 < fval (loss s) (two u).
  Proof. rewrite LS. cbn. assert (X := Rle_0_sqr (qmin 1 1 u - 1)). assert (Y := Rle_0_sqr (qmin 3 1 u - 1)). unfold Rsqr in X, Y. lra. Qed.
  Lemma qmin_pos c a u : 0 < c -> 0 < a -> 0 < qmin c a u.
  Proof. intros C A. unfold qmin. assert (E := exp_pos (2 * u)). apply Rdiv_lt_0_compat; [apply Rmult_lt_0_compat; auto|lra]. Qed.
  Lemma two_pen u : 0 < fval (penalty s) (two u).
  Proof.
    unfold penalty. rewrite RG. cbn. assert (P := qmin_pos 1 1 u ltac:(lra) ltac:(lra)). assert (Y := Rle_0_sqr (qmin 3 1 u)). unfold Rsqr in Y.
    assert (0 < qmin 1 1 u * qmin 1 1 u) by (apply Rmult_lt_0_compat; auto). rewrite !Rminus_0_r. lra.
  Qed.
  Lemma two_posdef x t : posdef 2 (hessian s x t).
  Proof.
    intros z N. unfold quad, mv, hessian, penalty. rewrite LS, RG. cbn. unfold delta. cbn. assert (E := exp_pos (2 * t)).
    match goal with |- 0 < ?l => replace l with ((1 + exp (2 * t)) * (z O * z O) + (3 + exp (2 * t)) * (z 1%nat * z 1%nat)) by ring end.
    assert (X := Rle_0_sqr (z O)). assert (Y := Rle_0_sqr (z 1%nat)). unfold Rsqr in X, Y. destruct N as (i & Hi & N). assert (P := Rsqr_pos_lt _ N). unfold Rsqr in P.
    destruct i as [|[|i]]; [| |lia].
    - assert (0 < (1 + exp (2 * t)) * (z O * z O)) by (apply Rmult_lt_0_compat; lra). assert (0 <= (3 + exp (2 * t)) * (z 1%nat * z 1%nat)) by (apply Rmult_le_pos; lra). lra.
    - assert (0 <= (1 + exp (2 * t)) * (z O * z O)) by (apply Rmult_le_pos; lra). assert (0 < (3 + exp (2 * t)) * (z 1%nat * z 1%nat)) by (apply Rmult_lt_0_compat; lra). lra.
  Qed.
  Lemma two_nonzero t : nonzero 2 (fgrad (penalty s) (two t)).
  Proof.
    exists O. split; [lia|]. unfold penalty. rewrite RG. cbn. unfold delta. cbn. assert (P := qmin_pos 1 1 t ltac:(lra) ltac:(lra)). lra.
  Qed.
End Two.
Example C95_ex2 t : let s := mkSetup two_f None two_regs (Some two_f) in
  exists k, compute_curvature 2 s (two t) t = Ok (Some k) /\ is_curvature (fun u => ln (fval two_f (two u))) (fun u => ln (fval (penalty s) (two u))) t k.
Proof.
  intros s. apply (C95_curvature 2 s two two1 (two2 t) t); try reflexivity; try discriminate.
  - apply (two_smooth s); auto.
  - apply (two_regs_smooth s); auto.
  - apply (two_min s); auto.
  - intros; apply two_d1; auto.
  - intros; apply two_d2; auto.
  - apply (two_pos s); auto.
  - apply (two_pen s); auto.
  - apply (two_posdef s); auto.
  - apply (two_nonzero s); auto.
Qed.
(** with an external term the result is not even the curvature of the curve which leaves this term out *)
Theorem C95_external_refuted : exists s d path k k', s_fixed s = Some d /\ d = s_prof s /\ minima (fval (loss s)) (fval (penalty s)) path /\
  compute_curvature 2 s (path 0) 0 = Ok (Some k) /\ is_curvature (fun u => ln (fval d (path u))) (fun u => ln (fval (penalty s) (path u))) 0 k' /\ k <> k'.
Proof.
  set (d := quadr 0 1 1 1). set (s := mkSetup d (Some (quadr 1 3 1 0)) two_regs (Some d)). assert (LS : loss s = two_f) by reflexivity. assert (RG : s_regs s = two_regs) by reflexivity.
  set (d2 := fun i => match i with O => - / 2 | _ => - 9 / 16 end).
  assert (X0 : two 0 0 = / 2) by (unfold two, qmin; rewrite e20; field). assert (X1 : two 0 1 = 3 / 4) by (unfold two, qmin; rewrite e20; field).
  assert (G0 : two1 0 0 = - / 2) by (unfold two1, qmin1; rewrite e20; field). assert (G1 : two1 0 1 = - 3 / 8) by (unfold two1, qmin1; rewrite e20; field).
  assert (H0 : two2 0 0 = 0) by (unfold two2, qmin2; rewrite e20; field). assert (H1 : two2 0 1 = - 3 / 8) by (unfold two2, qmin2; rewrite e20; field).
  assert (DP : forall u, 0 < fval d (two u)) by (intros u; cbn; assert (Y := Rle_0_sqr (qmin 1 1 u - 1)); unfold Rsqr in Y; lra).
  assert (V := evaluate 2 s two two1 0 (two_smooth s LS) (two_regs_smooth s RG) (two_min s LS RG) (fun u i => two_d1 u i) (two_pen s RG) (two_posdef s LS RG _ _) d d2 eq_refl ltac:(discriminate) (DP 0)).
  assert (E2 : forall i, (i < 2)%nat -> mv 2 (hessian s (two 0) 0) d2 i = - (4 * exp (2 * 0) * fgrad (penalty s) (two 0) i + 2 * exp (2 * 0) * mv 2 (fhess (penalty s) (two 0)) (two1 0) i)).
  { intros i Hi. unfold hessian. rewrite LS, e20. destruct i as [|[|i]]; [| |lia]; unfold two_f; num; unfold s; cbn [s_regs]; unfold two_regs; num; rewrite ?X0, ?X1, ?G0, ?G1; unfold d2; field. }
  specialize (V E2).
  assert (SD : smooth 2 (fval d) (fgrad d) (fhess d)) by (apply quadr_smooth; lia).
  assert (SP : smooth 2 (fval (penalty s)) (fgrad (penalty s)) (fhess (penalty s))) by (apply smooth_add_n; exact (two_regs_smooth s RG)).
  assert (F1 : first 2 (flog d) (two 0) (two1 0) = 2 / 9) by (unfold d; num; rewrite X0, G0, G1; field).
  assert (F2 : first 2 (flog (penalty s)) (two 0) (two1 0) = - 17 / 13) by (unfold s; num; unfold two_regs; num; rewrite X0, X1, G0, G1; field).
  set (sx := sm 2 (fun i => two1 0 i * mv 2 (fhess (flog d) (two 0)) (two1 0) i)). set (sy := sm 2 (fun i => two1 0 i * mv 2 (fhess (flog (penalty s)) (two 0)) (two1 0) i)).
  assert (A1 : second 2 (flog d) (two 0) (two1 0) d2 = sx + 2 / 9) by (unfold second; fold sx; f_equal; unfold d; num; unfold d2; rewrite X0; field).
  assert (A2 : second 2 (flog (penalty s)) (two 0) (two1 0) d2 = sy - 43 / 26) by (unfold second; fold sy; unfold Rminus; f_equal; unfold s; num; unfold two_regs; num; unfold d2; rewrite X0, X1; field).
  assert (B1 : second 2 (flog d) (two 0) (two1 0) (two2 0) = sx) by (unfold second; fold sx; rewrite <- (Rplus_0_r sx) at 2; f_equal; unfold d; num; rewrite X0, H0, H1; field).
  assert (B2 : second 2 (flog (penalty s)) (two 0) (two1 0) (two2 0) = sy - 9 / 13) by (unfold second; fold sy; unfold Rminus; f_equal; unfold s; num; unfold two_regs; num; rewrite X0, X1, H0, H1; field).
  rewrite F1, F2, A1, A2 in V. unfold curv in V. cbv zeta in V. set (dd := 2 / 9 * (2 / 9) + -17 / 13 * (-17 / 13)) in *. assert (0 < dd) by (unfold dd; lra).
  destruct (Reqb_spec dd 0); [lra|].
  exists s, d, two, (((sy - 43 / 26) * (2 / 9) - (sx + 2 / 9) * (-17 / 13)) / Rpower dd (3 / 2)), ((2 / 9 * (sy - 9 / 13) - - 17 / 13 * sx) / Rpower dd (3 / 2)).
  split; [auto|]. split; [auto|]. split; [apply (two_min s); auto|]. split; [exact V|]. split.
  - exists (fun u => first 2 (flog d) (two u) (two1 u)), (fun u => first 2 (flog (penalty s)) (two u) (two1 u)), sx, (sy - 9 / 13).
    split; [intros u; apply d_log; auto; intros; apply two_d1; auto|]. split; [intros u; apply d_log; auto; [intros; apply two_d1; auto|apply (two_pen s); auto]|].
    split; [rewrite <- B1; apply d_first; auto; [intros; apply two_d1; auto|intros; apply two_d2; auto]|].
    split; [rewrite <- B2; apply d_first; auto; [intros; apply two_d1; auto|intros; apply two_d2; auto|apply (two_pen s); auto]|]. rewrite F1, F2. fold dd. split; auto.
  - intros E. assert (P : 0 < Rpower dd (3 / 2)) by apply exp_pos. apply (f_equal (fun z => z * Rpower dd (3 / 2))) in E.
    unfold Rdiv in E. rewrite !Rmult_assoc in E. rewrite Rinv_l in E by lra. lra.
Qed.
Print Assumptions C95_curvature.
Print Assumptions C95_tradeoff.
Print Assumptions C95_external_refuted.
