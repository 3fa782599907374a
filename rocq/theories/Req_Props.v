(** C100: which results a fit stores, where they are evaluated, and which covariance they use. *)
From Coq Require Import List Bool String.
From Verif Require Import PyList Req_Model Req_Spec Req_Proof Req_Whole.
Import ListNotations.
Local Open Scope string_scope.

(** everything asked for is stored, and nothing else *)
Theorem C100_stored o ms data l : let dofit := data && negb (o_noFit o) in computes_cov o dofit -> one_fit o ms data = Ok l ->
  forall k n, stored l k n <-> requested o ms dofit k n.
Proof. exact (stored_all o ms data l). Qed.
(** every uncertainty belongs to the point of its value: the prefit covariance (the unit one for variations) at the starting values,
    and the inverse Hessian at the point of the results *)
Theorem C100_sources o ms data l e : let dofit := data && negb (o_noFit o) in computes_cov o dofit -> one_fit o ms data = Ok l -> In e l ->
  (prefit_name (e_name e) = true ->
     e_point e = AtStart /\ (e_cov e = NotUsed \/ e_cov e = From (if String.eqb (e_name e) "hist_prefit_inclusive_variations" then SUnit else SPrefit))) /\
  (prefit_name (e_name e) = false -> lcurve_name (e_name e) = false ->
     e_point e = final_point o dofit /\ (e_cov e = NotUsed \/ e_cov e = From (SHess (e_point e)))).
Proof.
  intros dofit C E I. pose proof (computes_hess _ _ C) as HC. destruct C as (H & _). rewrite (one_fit_ok _ _ _ H) in E. fold dofit in E.
  assert (A : In e (pre_entries o ms) -> pre_rule e) by apply pre_good.
  assert (B : In e (post_entries o ms dofit) -> post_rule o dofit e) by (apply post_good; exact HC).
  assert (J : In e (pre_entries o ms) \/ In e (post_entries o ms dofit)).
  { destruct (o_prefitOnly o); [apply ok_inj in E; subst l; auto|]. destruct (o_contour2 o); [discriminate|]. apply ok_inj in E. subst l. apply in_app_or. exact I. }
  destruct J as [J|J].
  - destruct (A J) as (N & R). rewrite N. split; [intros _; exact R|discriminate].
  - destruct (B J) as (N & _ & R). rewrite N. split; [discriminate|intros _; exact R].
Qed.
(** errors of the fit: those of the parameters are filled from the Hessian *)
Theorem C100_parms o ms data l : let dofit := data && negb (o_noFit o) in computes_cov o dofit -> o_prefitOnly o = false -> one_fit o ms data = Ok l ->
  In (mkE None "parms" (final_point o dofit) (From (SHess (final_point o dofit)))) l /\ In (mkE None "cov" (final_point o dofit) (From (SHess (final_point o dofit)))) l.
Proof.
  intros dofit C P E. pose proof (computes_hess _ _ C) as HC. destruct C as (H & _). rewrite (one_fit_ok _ _ _ H), P in E. fold dofit in E. destruct (o_contour2 o); [discriminate|].
  apply ok_inj in E. subst l. unfold post_entries, parms_cov, tail_entries, hess_entries. cbv zeta. rewrite HC. cbn [when]. split; apply in_or_app; right; apply in_or_app; left; apply in_or_app; right.
  - apply in_or_app. right. apply in_or_app. left. cbn. right. right. right. apply in_or_app. right. left. reflexivity.
  - left. reflexivity.
Qed.
(** the histograms of the prefit do not change the state of the fitter *)
Theorem C100_prefit_unchanged o ms p c : exists l, save_hists o true ms (mkS p (Some c)) = Ok (l, mkS p (Some c)).
Proof. rewrite hists_ok. eauto. Qed.
(** when a fit succeeds *)
Theorem C100_succeeds o ms data : o_noHessian o = false -> (exists l, one_fit o ms data = Ok l) <-> o_prefitOnly o = true \/ o_contour2 o = false.
Proof.
  intros H. rewrite (one_fit_ok _ _ _ H). destruct (o_prefitOnly o); [split; eauto|]. destruct (o_contour2 o); split; eauto.
  - intros (l & E). discriminate.
  - intros [E|E]; discriminate.
Qed.
Theorem C100_succeeds_no_hessian o ms data : o_noHessian o = true -> (exists l, one_fit o ms data = Ok l) <-> accepted o /\ (o_prefitOnly o = true \/ works_without o).
Proof. exact (no_hessian o ms data). Qed.

(** ** Examples *)
Definition base : opts := mkO false false false false false false None false false false false false false false false false [] [] false false false
  false false false false false false false false false false.
Definition full : opts := mkO false false false false true true None false false true true true true true true true ["mu"] [("mu", "nu")] false true false
  true true true true true true true true true false.
Definition ms1 : list mapping := [mkM "BaseMapping" true false false false false; mkM "Project ch0 pt" true false false true true; mkM "Ratio" false true false false false].
Example C100_ex_variations_without : forall m b p, save_variations m b (mkS p None) = Raise RuntimeError.
Proof. reflexivity. Qed.
Example ex_base : one_fit base [] true = Ok [mkE None "parms_prefit" AtStart (From SPrefit); mkE None "cov" AtMinimum (From (SHess AtMinimum));
  mkE None "nllvalreduced" AtMinimum NotUsed; mkE None "ndfsat" AtMinimum NotUsed; mkE None "edmval" AtMinimum NotUsed; mkE None "parms" AtMinimum (From (SHess AtMinimum))].
Proof. reflexivity. Qed.
Example ex_full : match one_fit full ms1 true with Ok l => List.length l = 77 | _ => False end.
Proof. vm_compute. reflexivity. Qed.
Example ex_ratio : match one_fit full ms1 true with
  | Ok l => filter (fun e => match e_map e with Some k => String.eqb k "Ratio" | None => false end) l =
            map (fun n => mkE (Some "Ratio") n AtMinimum (From (SHess AtMinimum)))
              ["hist_postfit_inclusive"; "hist_postfit_inclusive_global_impacts"; "hist_postfit_inclusive_global_impacts_grouped"; "hist_postfit_inclusive_gaussian_global_impacts";
               "hist_postfit_inclusive_gaussian_global_impacts_grouped"; "hist_postfit_inclusive_cov"; "hist_postfit"; "hist_postfit_inclusive_variations"]
  | _ => False end.
Proof. vm_compute. reflexivity. Qed.
Example ex_full_computes : computes_cov full true.
Proof. unfold computes_cov. cbn. auto. Qed.
Example ex_requested : requested full ms1 true (Some "Project ch0 pt") "chi2_saturated" /\ ~ requested full ms1 true (Some "BaseMapping") "chi2_saturated".
Proof.
  split.
  - apply (rq_postfit full ms1 true (mkM "Project ch0 pt" true false false true true)); [reflexivity|reflexivity|cbn; auto|]. unfold hist_request. cbn. tauto.
  - intros R. remember (Some "BaseMapping") as k eqn:K. remember "chi2_saturated" as n eqn:N.
    destruct R as [|m n S I D H|m n S I D H|m n S P I H|n P H]; try discriminate K; injection K as K.
    + destruct H; congruence.
    + unfold hist_request in H. cbn in H. intuition congruence.
    + destruct I as [<-|[<-|[<-|[]]]]; try discriminate K. unfold hist_request in H. cbn in H. intuition congruence.
Qed.
Example ex_no_fit : match one_fit (mkO false false true false false false (Some false) false false false false false false false false false [] [] false false false true false true false false false false false false false)
    [mkM "BaseMapping" true false false false false] true with
  | Ok l => In (mkE None "parms" AtLoaded (From (SHess AtLoaded))) l /\ In (mkE (Some "BaseMapping") "hist_postfit_inclusive" AtLoaded (From (SHess AtLoaded))) l /\
            In (mkE (Some "BaseMapping") "hist_prefit_inclusive" AtStart (From SPrefit)) l
  | _ => False end.
Proof. vm_compute. auto 20. Qed.
Example ex_no_hessian : one_fit (mkO true false false false false false None false false false false false false false false false ["mu"] [] true false false true false false false false false false false true true)
    [mkM "Project ch0 pt" true false false false true] true =
  Ok [mkE None "parms_prefit" AtStart (From SPrefit); mkE (Some "Project ch0 pt") "hist_data_obs" AtStart NotUsed; mkE (Some "Project ch0 pt") "hist_nobs" AtStart NotUsed;
      mkE (Some "Project ch0 pt") "hist_prefit_inclusive" AtStart NotUsed; mkE None "nllvalreduced" AtMinimum NotUsed; mkE None "ndfsat" AtMinimum NotUsed; mkE None "edmval" AtMinimum NotUsed;
      mkE None "parms" AtMinimum (Rows AtMinimum); mkE None "nll_scan_mu" AtMinimum NotUsed; mkE (Some "Project ch0 pt") "hist_postfit_inclusive" AtMinimum NotUsed;
      mkE (Some "Project ch0 pt") "ndf_saturated" AtMinimum NotUsed; mkE (Some "Project ch0 pt") "chi2_saturated" AtMinimum NotUsed].
Proof. reflexivity. Qed.

(** ** Where the expectation fails *)
Definition entries (r : result (list entry)) : list entry := match r with Ok l => l | Raise _ => [] end.
Definition key_eqb (a b : option string) : bool := match a, b with None, None => true | Some x, Some y => String.eqb x y | _, _ => false end.
Lemma key_eqb_refl a : key_eqb a a = true.
Proof. destruct a; [apply String.eqb_refl|reflexivity]. Qed.
Lemma not_stored l k n : existsb (fun e => key_eqb (e_map e) k && String.eqb (e_name e) n) l = false -> ~ stored l k n.
Proof.
  intros H (e & I & <- & <-). assert (X : existsb (fun x => key_eqb (e_map x) (e_map e) && String.eqb (e_name x) (e_name e)) l = true).
  { apply existsb_exists. exists e. split; [exact I|]. rewrite key_eqb_refl, String.eqb_refl. reflexivity. }
  congruence.
Qed.
Ltac found := vm_compute; repeat (first [left; reflexivity|right]).
Ltac missing := apply not_stored; vm_compute; reflexivity.
(** with --noEDM (and without --noHessian) requested impacts and the covariance are silently missing, and the errors and the chi2 of
    the postfit histograms come from the prefit covariance *)
Theorem C100_no_edm_refuted : exists o ms l, o_noHessian o = false /\ o_noEDM o = true /\ one_fit o ms true = Ok l /\
  requested o ms true None "impacts" /\ ~ stored l None "impacts" /\ ~ stored l None "cov" /\
  In (mkE None "parms" AtMinimum IsNan) l /\
  In (mkE (Some "BaseMapping") "hist_postfit_inclusive" AtMinimum (From SPrefit)) l /\ In (mkE (Some "BaseMapping") "chi2" AtMinimum (From SPrefit)) l.
Proof.
  pose (o := mkO false true false false false false None false false true false false false false false false [] [] false false false true false true false false false false false false false).
  pose (ms := [mkM "BaseMapping" true false false false false]). exists o, ms, (entries (one_fit o ms true)).
  split; [reflexivity|]. split; [reflexivity|]. split; [vm_compute; reflexivity|]. split; [apply rq_fit; [reflexivity|]; unfold fit_request; cbn; tauto|].
  split; [missing|]. split; [missing|]. split; [found|]. split; found.
Qed.
(** in general: with --noEDM every covariance used after the fit is the one from before it *)
Theorem C100_no_edm o ms l e : o_noHessian o = false -> o_noEDM o = true -> o_external o = None -> one_fit o ms true = Ok l -> In e l ->
  forall s, e_cov e = From s -> s = SPrefit \/ s = SUnit.
Proof.
  intros H N X E I s C. rewrite (one_fit_ok _ _ _ H) in E.
  assert (J : In e (pre_entries o ms) \/ In e (post_entries o ms (true && negb (o_noFit o)))).
  { destruct (o_prefitOnly o); [apply ok_inj in E; subst l; auto|]. destruct (o_contour2 o); [discriminate|]. apply ok_inj in E. subst l. apply in_app_or. exact I. }
  destruct J as [J|J].
  - destruct (pre_good o ms e J) as (_ & _ & [R|R]); rewrite R in C; [discriminate|]. injection C as <-. destruct (String.eqb _ _); auto.
  - generalize dependent J. set (dofit := true && negb (o_noFit o)). intros J.
    assert (HC : hess_computed o dofit = false) by (unfold hess_computed; rewrite N; cbn; rewrite andb_false_r; reflexivity).
    assert (FC : final_cov o dofit SPrefit = SPrefit) by (unfold final_cov, loaded_cov; rewrite HC, X; reflexivity).
    assert (G : good (fun e => forall s, e_cov e = From s -> s = SPrefit) (post_entries o ms dofit)).
    { unfold post_entries, head_entries, tail_entries, parms_cov. cbv zeta. rewrite FC, HC, N. cbn [when negb]. rewrite andb_false_r. goods; try (intros t T; cbn in T; try discriminate T; try (destruct (o_warmstart o)); congruence).
      - apply good_map. intros x _ t T. cbn in T. destruct (o_useprefit o); congruence.
      - apply good_flat. intros m. unfold mapping_entries, inclusive_entries. cbv zeta. cbn [andb negb when]. goods; intros t T; cbn in T; try discriminate T;
          try (destruct (o_errors o || o_cov o || o_himpacts o || o_hgaussian o)); try (destruct (o_perrors o)); congruence. }
    left. exact (G e J s C).
Qed.
(** --noHessian: impacts that need the Hessian pass the check of the options and are silently missing *)
Theorem C100_no_hessian_impacts_refuted : exists o l, o_noHessian o = true /\ one_fit o [] true = Ok l /\
  requested o [] true None "global_impacts" /\ ~ stored l None "global_impacts" /\ requested o [] true None "gaussian_global_impacts" /\ ~ stored l None "gaussian_global_impacts".
Proof.
  pose (o := mkO true false false false false false None false false false true true false false false false [] [] false false false false false false false false false false false false false).
  exists o, (entries (one_fit o [] true)). split; [reflexivity|]. split; [vm_compute; reflexivity|].
  split; [apply rq_fit; [reflexivity|]; unfold fit_request; cbn; tauto|]. split; [missing|]. split; [apply rq_fit; [reflexivity|]; unfold fit_request; cbn; tauto|missing].
Qed.
(** --noHessian: options that need the covariance pass the check and fail after the minimisation, so that nothing is stored *)
Theorem C100_no_hessian_fails_refuted :
  exists o1 o2 o3 o4, Forall (fun o => o_noHessian o = true /\ check_options o = None) [o1; o2; o3; o4] /\
  o_scan o1 = ["mu"] /\ one_fit o1 [] true = Raise TypeError /\ o_contour o2 = true /\ one_fit o2 [] true = Raise TypeError /\
  o_asym o3 = true /\ one_fit o3 [] true = Raise TypeError /\ o_warmstart o4 = true /\ one_fit o4 [] true = Raise RuntimeError.
Proof.
  exists (mkO true false false false false false None false false false false false false false false false ["mu"] [] false false false false false false false false false false false false false),
    (mkO true false false false false false None false false false false false false false false false [] [] false true false false false false false false false false false false false),
    (mkO true false false false false false None false false false false false false true false false [] [] false false false false false false false false false false false false false),
    (mkO true false false false false false None false false false false false false false true true [] [] false false false false false false false false false false false false false).
  split; [repeat constructor|]. repeat split.
Qed.
(** --contourScan2D: no fit with it stores anything *)
Theorem C100_contour2D_refuted o ms data : o_contour2 o = true -> o_prefitOnly o = false -> forall l, one_fit o ms data <> Ok l.
Proof.
  intros C P l E. destruct (o_noHessian o) eqn:H.
  - assert (X : exists l, one_fit o ms data = Ok l) by eauto. apply (no_hessian o ms data H) in X. destruct X as (_ & [X|X]); [congruence|]. unfold works_without in X. intuition congruence.
  - assert (X : exists l, one_fit o ms data = Ok l) by eauto. apply (C100_succeeds o ms data H) in X. destruct X; congruence.
Qed.
(** an external result with covariance and --noFit: the histograms use that covariance, but the parameters have no errors, and the covariance and the impacts are not stored *)
Theorem C100_external_refuted : exists o ms l, o_noHessian o = false /\ o_noEDM o = false /\ o_external o = Some true /\ o_noFit o = true /\ one_fit o ms true = Ok l /\
  In (mkE None "parms" AtLoaded IsNan) l /\ In (mkE (Some "BaseMapping") "hist_postfit_inclusive" AtLoaded (From SExternal)) l /\
  requested o ms false None "impacts" /\ ~ stored l None "impacts" /\ ~ stored l None "cov".
Proof.
  pose (o := mkO false false true false false false (Some true) false false true false false false false false false [] [] false false false true false true false false false false false false true).
  pose (ms := [mkM "BaseMapping" true false false false false]). exists o, ms, (entries (one_fit o ms true)).
  split; [reflexivity|]. split; [reflexivity|]. split; [reflexivity|]. split; [reflexivity|]. split; [vm_compute; reflexivity|]. split; [found|]. split; [found|].
  split; [apply rq_fit; [reflexivity|]; unfold fit_request; cbn; tauto|]. split; missing.
Qed.
(** --noFit with a scan of the regularisation: the results are those of the scan, not of the loaded parameters, while the covariance stays the loaded one *)
Theorem C100_lcurve_refuted : exists o ms l, o_noFit o = true /\ o_external o = Some true /\ o_lscan o = true /\ one_fit o ms true = Ok l /\
  In (mkE (Some "BaseMapping") "hist_postfit_inclusive" AtScan (From SExternal)) l.
Proof.
  pose (o := mkO false false true false false false (Some true) true false false false false false false false false [] [] false false false true false true false false false false false false true).
  pose (ms := [mkM "BaseMapping" true false false false false]). exists o, ms, (entries (one_fit o ms true)).
  split; [reflexivity|]. split; [reflexivity|]. split; [reflexivity|]. split; [vm_compute; reflexivity|]. found.
Qed.

Print Assumptions C100_stored.
Print Assumptions C100_sources.
Print Assumptions C100_parms.
Print Assumptions C100_prefit_unchanged.
Print Assumptions C100_succeeds.
Print Assumptions C100_succeeds_no_hessian.
Print Assumptions C100_no_edm.
Print Assumptions C100_no_edm_refuted.
Print Assumptions C100_no_hessian_impacts_refuted.
Print Assumptions C100_no_hessian_fails_refuted.
Print Assumptions C100_contour2D_refuted.
Print Assumptions C100_external_refuted.
Print Assumptions C100_lcurve_refuted.
