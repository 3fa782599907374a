(** Which results a fit stores for its options, where they are evaluated and from which covariance their uncertainties come:
    bin/rabbit_fit.py:335-515 (save_observed_hists, save_hists), 516-789 (fit), 792-824 (checks of main) and 909-986 (one data set),
    rabbit/fitter.py:405-416, 540-552, 1934-2004, 2390-2397, 2443-2448, 2634-2635, rabbit/impacts/global_asym_impacts.py:127-133,
    rabbit/workspace.py:33-52, 216-223, 474-588 (names).

    A value is its name, the point x at which it is evaluated, and where the covariance matrix it uses comes from. Not modelled:
    the values themselves, failures of the numerical methods, the case that an external result covers a part of the parameters
    only, and --asymImpacts without any parameter to scan. *)
From Coq Require Import List Arith Bool String.
From Verif Require Import PyList.
Import ListNotations.
Local Open Scope string_scope.

(** the point: the default (or toy) values, values of another regularisation strength, the loaded values, the minimum *)
Inductive point := AtStart | AtScan | AtLoaded | AtMinimum.
(** fitter.cov: the prefit matrix, the prefit matrix with unit errors, the inverse Hessian at a point, the loaded one *)
Inductive source := SPrefit | SUnit | SHess (p : point) | SExternal.
(** the uncertainty of a value: none, not a number, from selected rows of the inverse Hessian, from the covariance matrix *)
Inductive used := NotUsed | IsNan | Rows (p : point) | From (s : source).
Record entry := mkE { e_map : option string; e_name : string; e_point : point; e_cov : used }.

Record mapping := mkM { m_key : string; m_data : bool; m_skip_prefit : bool; m_skip_inclusive : bool; m_skip_process : bool; m_project : bool }.
Record opts := mkO {
  o_noHessian : bool; o_noEDM : bool; o_noFit : bool; o_prefitOnly : bool; o_fullNll : bool; o_callback : bool;
  o_external : option bool;     (* the file of --externalPostfit has a covariance *)
  o_lscan : bool; o_loptimize : bool;
  o_impacts : bool; o_global : bool; o_gaussian : bool; o_nonprofiled : bool; o_asym : bool; o_globalasym : bool; o_warmstart : bool;
  o_scan : list string; o_scan2 : list (string * string); o_useprefit : bool; o_contour : bool; o_contour2 : bool;
  o_save : bool; o_process : bool; o_errors : bool; o_perrors : bool; o_cov : bool; o_himpacts : bool; o_hgaussian : bool;
  o_variations : bool; o_saturated : bool; o_nochi2 : bool }.
Record fst8 := mkS { s_point : point; s_cov : option source }.

(** fitter.py:405-416, 797-803: the covariance is allocated unless --noHessian, and is the prefit one at the start of a fit *)
Definition start (o : opts) : fst8 := mkS AtStart (if o_noHessian o then None else Some SPrefit).
(** indexing or multiplying fitter.cov *)
Definition need (s : fst8) : result source := match s_cov s with Some c => Ok c | None => Raise TypeError end.

(** lines 792-824 *)
Definition check_options (o : opts) : option pyexc :=
  if o_noHessian o && (o_impacts o || o_variations o || (o_save o && negb (o_nochi2 o)) || o_errors o || o_perrors o || o_cov o || o_himpacts o || o_hgaussian o)
  then Some GenericException else None.

Definition when {A} (b : bool) (l : list A) : list A := if b then l else [].
(** workspace.py:33-43 *)
Definition hist_name (prefit variations process : bool) : string :=
  "hist" ++ (if prefit then "_prefit" else "_postfit") ++ (if process then "" else "_inclusive") ++ (if variations then "_variations" else "").
(** save_hists for one mapping, rabbit_fit.py:352-515 *)
Definition save_inclusive (o : opts) (m : mapping) (prefit : bool) (s : fst8) : result (list entry) :=
  let e n u := mkE (Some (m_key m)) n (s_point s) u in
  let name := hist_name prefit false false in
  u <- (if o_errors o || o_cov o || o_himpacts o || o_hgaussian o then c <- need s ;; Ok (From c) else Ok NotUsed) ;;
  c2 <- (if negb (o_nochi2 o) && m_data m then c <- need s ;; Ok [e (if prefit then "ndf_prefit" else "ndf") NotUsed; e (if prefit then "chi2_prefit" else "chi2") (From c)] else Ok []) ;;
  let sat := when (negb prefit && m_project m && o_saturated o) (e "ndf_saturated" NotUsed :: e "chi2_saturated" NotUsed :: when (negb (o_noHessian o)) [e "edmval_saturated" NotUsed]) in
  Ok (e name u :: when (o_himpacts o) [e (name ++ "_global_impacts")%string u; e (name ++ "_global_impacts_grouped")%string u] ++
      when (o_hgaussian o) [e (name ++ "_gaussian_global_impacts")%string u; e (name ++ "_gaussian_global_impacts_grouped")%string u] ++
      when (o_cov o) [e (name ++ "_cov")%string u] ++ c2 ++ sat)%list.
Definition save_process (o : opts) (m : mapping) (prefit : bool) (s : fst8) : result (list entry) :=
  u <- (if o_perrors o then c <- need s ;; Ok (From c) else Ok NotUsed) ;; Ok [mkE (Some (m_key m)) (hist_name prefit false true) (s_point s) u].
(** the covariance is replaced for the prefit variations and put back *)
Definition save_variations (m : mapping) (prefit : bool) (s : fst8) : result (list entry * fst8) :=
  match s_cov s with
  | None => Raise RuntimeError
  | Some saved =>
    let s := if prefit then mkS (s_point s) (Some SUnit) else s in
    c <- need s ;;
    Ok ([mkE (Some (m_key m)) (hist_name prefit true false) (s_point s) (From c)], if prefit then mkS (s_point s) (Some saved) else s)
  end.
Definition save_mapping (o : opts) (prefit : bool) (m : mapping) (s : fst8) : result (list entry * fst8) :=
  if prefit && m_skip_prefit m then Ok ([], s)
  else
    a <- (if negb (m_skip_inclusive m) then save_inclusive o m prefit s else Ok []) ;;
    b <- (if o_process o && negb (m_skip_process m) then save_process o m prefit s else Ok []) ;;
    v <- (if o_variations o then save_variations m prefit s else Ok ([], s)) ;;
    Ok ((a ++ b ++ fst v)%list, snd v).
Fixpoint save_hists (o : opts) (prefit : bool) (ms : list mapping) (s : fst8) : result (list entry * fst8) :=
  match ms with
  | [] => Ok ([], s)
  | m :: ms => a <- save_mapping o prefit m s ;; b <- save_hists o prefit ms (snd a) ;; Ok ((fst a ++ fst b)%list, snd b)
  end.
(** lines 335-349 *)
Definition save_observed (ms : list mapping) (s : fst8) : list entry :=
  flat_map (fun m => when (m_data m) [mkE (Some (m_key m)) "hist_data_obs" (s_point s) NotUsed; mkE (Some (m_key m)) "hist_nobs" (s_point s) NotUsed]) ms.

(** load_fitresult: the new state and external_cov_loaded *)
Definition load (o : opts) (s : fst8) : result (fst8 * bool) :=
  match o_external o with
  | None => Ok (s, false)
  | Some false => Ok (mkS AtLoaded (s_cov s), false)
  | Some true => match s_cov s with None => Raise RuntimeError | Some _ => Ok (mkS AtLoaded (Some SExternal), true) end
  end.
Fixpoint scans (o : opts) (l : list string) (s : fst8) : result (list entry) :=
  match l with
  | [] => Ok []
  | n :: l => u <- (if o_useprefit o then Ok NotUsed else c <- need s ;; Ok (From c)) ;; r <- scans o l s ;; Ok (mkE None n (s_point s) u :: r)
  end.
(** fit, lines 518-563: to the end of the minimisation *)
Definition fit_head (o : opts) (dofit : bool) (s : fst8) : result (list entry * fst8 * bool) :=
  sl <- load o s ;;
  let '(s, loaded) := sl in
  let e s n u := mkE None n (s_point s) u in
  let s := if o_lscan o then mkS AtScan (s_cov s) else s in
  let l1 := when (o_lscan o) [e s "step_tau" NotUsed; e s "step_lcurve" NotUsed] in
  let s := if o_loptimize o then mkS AtScan (s_cov s) else s in
  let l2 := when (o_loptimize o) [e s "best_tau" NotUsed; e s "best_lcurve" NotUsed] in
  let s := if dofit then mkS AtMinimum (s_cov s) else s in
  let l3 := when (dofit && o_callback o) [e s "epoch_loss" NotUsed; e s "epoch_time" NotUsed] in
  Ok ((l1 ++ l2 ++ l3)%list, s, loaded).
(** lines 564-659: the Hessian and what is made of it *)
Definition fit_hess (o : opts) (dofit loaded : bool) (s : fst8) : result (list entry * fst8 * used) :=
  let e s n u := mkE None n (s_point s) u in
  if dofit || (match o_external o with None => true | Some _ => false end) || negb loaded then
    if negb (o_noEDM o) && negb (o_noHessian o) then
      let s := mkS (s_point s) (Some (SHess (s_point s))) in
      c <- need s ;;
      Ok (e s "cov" (From c) ::
          (when (o_impacts o) [e s "impacts" (From c); e s "impacts_grouped" (From c)] ++
           when (o_global o) [e s "global_impacts" (From c); e s "global_impacts_grouped" (From c)] ++
           when (o_gaussian o) [e s "gaussian_global_impacts" (From c); e s "gaussian_global_impacts_grouped" (From c)])%list, s, From c)
    else if negb (o_noEDM o) then Ok ([], s, Rows (s_point s))
    else Ok ([], s, IsNan)
  else Ok ([], s, IsNan).
(** lines 661-789 *)
Definition fit_tail (o : opts) (var : used) (s : fst8) : result (list entry) :=
  let e n u := mkE None n (s_point s) u in
  let l5 := (e "nllvalreduced" NotUsed :: e "ndfsat" NotUsed :: e "edmval" NotUsed :: when (o_fullNll o) [e "nllvalfull" NotUsed] ++ [e "parms" var])%list in
  let l6 := when (o_nonprofiled o) [e "nonprofiled_impacts_asym" NotUsed; e "nonprofiled_impacts_asym_grouped" NotUsed] in
  l7 <- (if o_asym o then c <- need s ;; Ok [e "impacts_asym" (From c); e "impacts_asym_grouped" (From c)] else Ok []) ;;
  l8 <- (if o_globalasym o then
           match s_cov s, o_warmstart o with
           | None, true => Raise RuntimeError
           | Some c, true => Ok [e "global_impacts_asym" (From c); e "global_impacts_asym_grouped" (From c)]
           | _, false => Ok [e "global_impacts_asym" NotUsed; e "global_impacts_asym_grouped" NotUsed]
           end
         else Ok []) ;;
  l9 <- scans o (map (fun p => "nll_scan_" ++ p)%string (o_scan o) ++ map (fun p => "nll_scan2D_" ++ fst p ++ "_" ++ snd p)%string (o_scan2 o))%list s ;;
  l10 <- (if o_contour o then c <- need s ;; Ok [e "contour_scan" (From c)] else Ok []) ;;
  if o_contour2 o then Raise NotImplementedError else Ok (l5 ++ l6 ++ l7 ++ l8 ++ l9 ++ l10)%list.
Definition fit (o : opts) (dofit : bool) (s : fst8) : result (list entry * fst8) :=
  h <- fit_head o dofit s ;;
  let '(a, s, loaded) := h in
  g <- fit_hess o dofit loaded s ;;
  let '(b, s, var) := g in
  t <- fit_tail o var s ;;
  Ok ((a ++ b ++ t)%list, s).
(** one data set, lines 931-986; [data] is false for the Asimov fit *)
Definition one_fit (o : opts) (ms : list mapping) (data : bool) : result (list entry) :=
  match check_options o with
  | Some x => Raise x
  | None =>
    let s := start o in
    let l0 := mkE None "parms_prefit" AtStart (From SPrefit) :: when (o_save o) (save_observed ms s) in
    a <- (if o_save o then save_hists o true ms s else Ok ([], s)) ;;
    if o_prefitOnly o then Ok (l0 ++ fst a)%list
    else
      f <- fit o (data && negb (o_noFit o)) (snd a) ;;
      b <- (if o_save o then save_hists o false ms (snd f) else Ok ([], snd f)) ;;
      Ok (l0 ++ fst a ++ fst f ++ fst b)%list
  end.
