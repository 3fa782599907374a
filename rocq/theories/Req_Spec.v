(** What was asked for, and where values and uncertainties have to come from. *)
From Coq Require Import List Bool String.
From Verif Require Import Req_Model.
Import ListNotations.
Local Open Scope string_scope.

(** histograms of a mapping; [t] is "prefit" or "postfit" *)
Definition hist_request (o : opts) (m : mapping) (prefit : bool) (n : string) : Prop :=
  let t := "hist_" ++ (if prefit then "prefit" else "postfit") in
  let incl := m_skip_inclusive m = false in
  let chi2 := incl /\ o_nochi2 o = false /\ m_data m = true in
  let saturated := incl /\ o_saturated o = true /\ m_project m = true /\ prefit = false in
  (incl /\ n = t ++ "_inclusive") \/
  (incl /\ o_himpacts o = true /\ (n = t ++ "_inclusive_global_impacts" \/ n = t ++ "_inclusive_global_impacts_grouped")) \/
  (incl /\ o_hgaussian o = true /\ (n = t ++ "_inclusive_gaussian_global_impacts" \/ n = t ++ "_inclusive_gaussian_global_impacts_grouped")) \/
  (incl /\ o_cov o = true /\ n = t ++ "_inclusive_cov") \/
  (chi2 /\ (n = "ndf" ++ (if prefit then "_prefit" else "") \/ n = "chi2" ++ (if prefit then "_prefit" else ""))) \/
  (saturated /\ (n = "ndf_saturated" \/ n = "chi2_saturated" \/ (o_noHessian o = false /\ n = "edmval_saturated"))) \/
  (o_process o = true /\ m_skip_process m = false /\ n = t) \/
  (o_variations o = true /\ n = t ++ "_inclusive_variations").
(** results of the fit; [dofit]: a minimisation is run *)
Definition fit_request (o : opts) (dofit : bool) (n : string) : Prop :=
  n = "nllvalreduced" \/ n = "ndfsat" \/ n = "edmval" \/ n = "parms" \/ n = "cov" \/
  (o_fullNll o = true /\ n = "nllvalfull") \/
  (o_lscan o = true /\ (n = "step_tau" \/ n = "step_lcurve")) \/ (o_loptimize o = true /\ (n = "best_tau" \/ n = "best_lcurve")) \/
  (dofit = true /\ o_callback o = true /\ (n = "epoch_loss" \/ n = "epoch_time")) \/
  (o_impacts o = true /\ (n = "impacts" \/ n = "impacts_grouped")) \/ (o_global o = true /\ (n = "global_impacts" \/ n = "global_impacts_grouped")) \/
  (o_gaussian o = true /\ (n = "gaussian_global_impacts" \/ n = "gaussian_global_impacts_grouped")) \/
  (o_nonprofiled o = true /\ (n = "nonprofiled_impacts_asym" \/ n = "nonprofiled_impacts_asym_grouped")) \/
  (o_asym o = true /\ (n = "impacts_asym" \/ n = "impacts_asym_grouped")) \/ (o_globalasym o = true /\ (n = "global_impacts_asym" \/ n = "global_impacts_asym_grouped")) \/
  (exists p, In p (o_scan o) /\ n = "nll_scan_" ++ p) \/ (exists p q, In (p, q) (o_scan2 o) /\ n = "nll_scan2D_" ++ p ++ "_" ++ q) \/
  (o_contour o = true /\ n = "contour_scan").
Inductive requested (o : opts) (ms : list mapping) (dofit : bool) : option string -> string -> Prop :=
| rq_parms : requested o ms dofit None "parms_prefit"
| rq_data m n : o_save o = true -> In m ms -> m_data m = true -> n = "hist_data_obs" \/ n = "hist_nobs" -> requested o ms dofit (Some (m_key m)) n
| rq_prefit m n : o_save o = true -> In m ms -> m_skip_prefit m = false -> hist_request o m true n -> requested o ms dofit (Some (m_key m)) n
| rq_postfit m n : o_save o = true -> o_prefitOnly o = false -> In m ms -> hist_request o m false n -> requested o ms dofit (Some (m_key m)) n
| rq_fit n : o_prefitOnly o = false -> fit_request o dofit n -> requested o ms dofit None n.
Definition stored (l : list entry) (k : option string) (n : string) : Prop := exists e, In e l /\ e_map e = k /\ e_name e = n.

(** the point of the results *)
Definition final_point (o : opts) (dofit : bool) : point :=
  if dofit then AtMinimum else if o_lscan o || o_loptimize o then AtScan else match o_external o with Some _ => AtLoaded | None => AtStart end.
Definition prefit_name (n : string) : bool := String.prefix "hist_prefit" n || existsb (String.eqb n) ["parms_prefit"; "ndf_prefit"; "chi2_prefit"; "hist_data_obs"; "hist_nobs"].
Definition lcurve_name (n : string) : bool := existsb (String.eqb n) ["step_tau"; "step_lcurve"; "best_tau"; "best_lcurve"].
(** the covariance is computed: with a Hessian, and not replaced by a loaded one *)
Definition computes_cov (o : opts) (dofit : bool) : Prop := o_noHessian o = false /\ o_noEDM o = false /\ (dofit = true \/ o_external o <> Some true).
(** options accepted together with --noHessian *)
Definition accepted (o : opts) : Prop :=
  o_impacts o = false /\ o_variations o = false /\ (o_save o = true -> o_nochi2 o = true) /\
  o_errors o = false /\ o_perrors o = false /\ o_cov o = false /\ o_himpacts o = false /\ o_hgaussian o = false.
(** what works without a covariance *)
Definition works_without (o : opts) : Prop :=
  o_external o <> Some true /\ o_asym o = false /\ (o_globalasym o = true -> o_warmstart o = false) /\
  ((o_scan o = [] /\ o_scan2 o = []) \/ o_useprefit o = true) /\ o_contour o = false /\ o_contour2 o = false.
