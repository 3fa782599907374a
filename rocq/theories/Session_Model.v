(** Model of the state a fit starts from: bin/rabbit_fit.py:826-986 (loop over the fits and the data
    sets), rabbit/fitter.py:676-688 (set_blinding_offsets), 737-930 (prefit_variance, set_nobs,
    defaultassign, bayesassign, frequentistassign, toyassign), rabbit/bbstat/bbstat.py:230-362 and
    rabbit/impacts/asym_impacts.py:95-190 (freezing and releasing groups), over the reals.

    What a fit does to the fitter after it started is any list of operations [pop]; the values they
    produce are arbitrary. Random numbers are functions of the parameters of the distribution.
    Vectors of bin-by-bin parameters are flat. [self.nexpnom] is never read. *)
From Coq Require Import List Arith Bool String ZArith Reals DecimalString.
From Verif Require Import PyList PyDict RBase BBStat_Model Freeze_Model Writer_Model Fit_Model.
Import ListNotations.
Local Open Scope R_scope.

Notation vec := (list R).
Notation mat := (list (list R)).
Definition vzip (f : R -> R -> R) (a b : vec) : vec := map (fun p => f (fst p) (snd p)) (combine a b).
Definition diag (v : vec) : mat := map (fun i => map (fun j => if Nat.eqb i j then nth i v 0 else 0) (seq 0 (List.length v))) (seq 0 (List.length v)).
Definition diag_part (m : mat) : vec := map (fun i => nth i (nth i m []) 0) (seq 0 (List.length m)).
Definition is_zero (x : R) : bool := if Req_EM_T x 0 then true else false.
(** tfhelpers.is_diag *)
Definition is_diag (m : mat) : bool :=
  forallb (fun i => forallb (fun j => Nat.eqb i j || is_zero (nth j (nth i m []) 0)) (seq 0 (List.length m))) (seq 0 (List.length m)).

(** what does not change during a session *)
Record senv := mkEnv {
  v_parms : list string; v_rx : regex;
  v_x0def : vec; v_cw : vec; v_varx0 : vec; v_unc : R;
  v_bb : bool; v_bbt : bbtype; v_kstat : vec; v_varbeta : vec;
  v_doblind : bool; v_bpoi : vec; v_btheta : vec;
  v_chi2 : bool; v_covfit : bool; v_hascov : bool;
  (** expected_yield(profile=False, full): effective offsets, x, beta *)
  v_yield : bool -> option (vec * vec) -> vec -> vec -> vec;
  v_getx : option (vec * vec) -> vec -> vec }.

Record fstate := mkF {
  f_x : vec; f_x0 : vec; f_beta : vec; f_beta0 : vec; f_logbeta0 : vec;
  f_nobs : vec; f_lognobs : vec; f_varnobs : vec;
  f_cov : option mat; f_varpre : vec; f_off : vec * vec; f_regexp : vec * vec; f_tau : R; f_fz : freeze_st; f_nexpnom : vec }.
Definition set_x s x := mkF x (f_x0 s) (f_beta s) (f_beta0 s) (f_logbeta0 s) (f_nobs s) (f_lognobs s) (f_varnobs s) (f_cov s) (f_varpre s) (f_off s) (f_regexp s) (f_tau s) (f_fz s) (f_nexpnom s).
Definition set_x0 s x0 := mkF (f_x s) x0 (f_beta s) (f_beta0 s) (f_logbeta0 s) (f_nobs s) (f_lognobs s) (f_varnobs s) (f_cov s) (f_varpre s) (f_off s) (f_regexp s) (f_tau s) (f_fz s) (f_nexpnom s).
Definition set_beta s b := mkF (f_x s) (f_x0 s) b (f_beta0 s) (f_logbeta0 s) (f_nobs s) (f_lognobs s) (f_varnobs s) (f_cov s) (f_varpre s) (f_off s) (f_regexp s) (f_tau s) (f_fz s) (f_nexpnom s).
Definition log_safe (v : vec) : vec := map (fun x => if is_zero x then ln 1 else ln x) v.
(** bbstat.py:237-245 *)
Definition set_beta0 s b := mkF (f_x s) (f_x0 s) (f_beta s) b (log_safe b) (f_nobs s) (f_lognobs s) (f_varnobs s) (f_cov s) (f_varpre s) (f_off s) (f_regexp s) (f_tau s) (f_fz s) (f_nexpnom s).
Definition set_data s n l v := mkF (f_x s) (f_x0 s) (f_beta s) (f_beta0 s) (f_logbeta0 s) n l v (f_cov s) (f_varpre s) (f_off s) (f_regexp s) (f_tau s) (f_fz s) (f_nexpnom s).
Definition set_cov s c := mkF (f_x s) (f_x0 s) (f_beta s) (f_beta0 s) (f_logbeta0 s) (f_nobs s) (f_lognobs s) (f_varnobs s) c (f_varpre s) (f_off s) (f_regexp s) (f_tau s) (f_fz s) (f_nexpnom s).
Definition set_varpre s v := mkF (f_x s) (f_x0 s) (f_beta s) (f_beta0 s) (f_logbeta0 s) (f_nobs s) (f_lognobs s) (f_varnobs s) (f_cov s) v (f_off s) (f_regexp s) (f_tau s) (f_fz s) (f_nexpnom s).
Definition set_off s o := mkF (f_x s) (f_x0 s) (f_beta s) (f_beta0 s) (f_logbeta0 s) (f_nobs s) (f_lognobs s) (f_varnobs s) (f_cov s) (f_varpre s) o (f_regexp s) (f_tau s) (f_fz s) (f_nexpnom s).
Definition set_regexp s e := mkF (f_x s) (f_x0 s) (f_beta s) (f_beta0 s) (f_logbeta0 s) (f_nobs s) (f_lognobs s) (f_varnobs s) (f_cov s) (f_varpre s) (f_off s) e (f_tau s) (f_fz s) (f_nexpnom s).
Definition set_tau s t := mkF (f_x s) (f_x0 s) (f_beta s) (f_beta0 s) (f_logbeta0 s) (f_nobs s) (f_lognobs s) (f_varnobs s) (f_cov s) (f_varpre s) (f_off s) (f_regexp s) t (f_fz s) (f_nexpnom s).
Definition set_fz s z := mkF (f_x s) (f_x0 s) (f_beta s) (f_beta0 s) (f_logbeta0 s) (f_nobs s) (f_lognobs s) (f_varnobs s) (f_cov s) (f_varpre s) (f_off s) (f_regexp s) (f_tau s) z (f_nexpnom s).
Definition set_nexpnom s n := mkF (f_x s) (f_x0 s) (f_beta s) (f_beta0 s) (f_logbeta0 s) (f_nobs s) (f_lognobs s) (f_varnobs s) (f_cov s) (f_varpre s) (f_off s) (f_regexp s) (f_tau s) (f_fz s) n.

Section Session.
  Variable env : senv.
  (** get_poi/get_theta use the offsets only if self.do_blinding *)
  Definition eff (s : fstate) : option (vec * vec) := if v_doblind env then Some (f_off s) else None.
  Definition expected_yield (full : bool) (s : fstate) : vec := v_yield env full (eff s) (f_x s) (f_beta s).
  (** fitter.py:676-688 *)
  Definition neutral : vec * vec := (map (fun _ => 1) (v_bpoi env), map (fun _ => 0) (v_btheta env)).
  Definition set_blinding (blind : bool) (s : fstate) : fstate :=
    if v_doblind env then set_off s (if blind then (v_bpoi env, v_btheta env) else neutral) else s.
  (** fitter.py:737-749 *)
  Definition prefit_variance (err : R) : vec := map (fun c => if is_zero c then err * err else / c) (v_cw env).
  (** bbstat.py:230-235 *)
  Definition default_beta0 : vec :=
    match v_bbt env with NormalAdd => map (fun _ => 0) (v_varbeta env) | _ => map (fun _ => 1) (v_varbeta env) end.
  (** fitter.py:797-815 *)
  Definition defaultassign (s : fstate) : fstate :=
    let var := prefit_variance (v_unc env) in
    let s := set_varpre s var in
    let s := if v_hascov env then set_cov s (Some (diag var)) else s in
    let s := set_x0 s (v_x0def env) in
    let s := if v_bb env then let s := set_beta0 s default_beta0 in set_beta s (f_beta0 s) else s in
    let s := set_x s (v_x0def env) in
    let s := set_blinding false s in
    set_regexp s (v_getx env (eff s) (f_x s), expected_yield true s).
  (** fitter.py:773-786 *)
  Definition set_nobs (values : vec) (variances : option vec) (s : fstate) : result fstate :=
    if v_chi2 env then
      if existsb (fun v => if Rle_dec v 0 then true else false) values then Raise RuntimeError
      else Ok (set_data s values (log_safe values) (match variances with Some v => v | None => values end))
    else Ok (set_data s values (log_safe values) (f_varnobs s)).

  Record draws := mkDr {
    dr_x : vec; dr_gamma : vec -> vec; dr_poisb : vec -> vec; dr_gaussb : vec -> vec -> vec;
    dr_pois : vec -> vec; dr_gauss : vec -> vec -> vec; dr_mvn : vec -> vec;
    dr_gaussx : vec -> vec -> vec; dr_mvnx : vec -> mat -> vec; dr_gaussb2 : vec -> vec -> vec }.
  Variable dr : draws.
  (** bbstat.py:266-299: standard deviation used for the non-gamma types *)
  Definition toy_sd (mean : vec) : vec :=
    match v_bbt env with NormalAdd => map (fun _ => 1) mean | _ => map sqrt (v_varbeta env) end.
  Definition randomize_bayes (s : fstate) : fstate :=
    if negb (v_bb env) then s else
    match v_bbt env with
    | Gamma =>
      let g := vzip Rdiv (dr_gamma dr (vzip (fun k b => k * b + 1) (v_kstat env) (f_beta0 s))) (v_kstat env) in
      set_beta s (vzip (fun k x => if is_zero k then 0 else x) (v_kstat env) g)
    | _ => set_beta s (dr_gaussb dr (f_beta0 s) (toy_sd (f_beta0 s)))
    end.
  (** bbstat.py:326-361 *)
  Definition randomize_freq (s : fstate) : fstate :=
    if negb (v_bb env) then s else
    match v_bbt env with
    | Gamma =>
      let g := vzip Rdiv (dr_poisb dr (vzip Rmult (v_kstat env) (f_beta s))) (v_kstat env) in
      set_beta0 s (vzip (fun k x => if is_zero k then 0 else x) (v_kstat env) g)
    | _ => set_beta0 s (dr_gaussb dr (f_beta s) (toy_sd (f_beta s)))
    end.
  (** bbstat.py:301-324 *)
  Definition randomize_postfit (s : fstate) : fstate :=
    if negb (v_bb env) then s else set_beta s (dr_gaussb2 dr (f_beta0 s) (map sqrt (v_varbeta env))).
  (** fitter.py:817-837 *)
  Definition bayesassign (s : fstate) : fstate :=
    let sampled := vzip Rplus (f_x0 s) (vzip Rmult (map sqrt (v_varx0 env)) (dr_x dr)) in
    randomize_bayes (set_x s (map (fun p => if Rlt_dec 0 (fst (fst p)) then snd (fst p) else snd p)
                               (combine (combine (v_cw env) sampled) (v_x0def env)))).
  Definition frequentistassign (s : fstate) : fstate :=
    randomize_freq (set_x0 s (vzip Rplus (v_x0def env) (vzip Rmult (map sqrt (v_varx0 env)) (dr_x dr)))).

  Inductive systrand := SrFreq | SrBayes | SrNone.
  Inductive datarand := DrPoisson | DrNormal | DrNone.
  Record topts := mkTo { to_syst : systrand; to_data : datarand; to_observed : bool; to_params : bool }.
  (** fitter.py:839-930 *)
  Definition toyassign (o : topts) (values : vec) (variances : option vec) (s : fstate) : result fstate :=
    let s := match to_syst o with SrBayes => bayesassign s | SrFreq => frequentistassign s | SrNone => s end in
    let nom := if to_observed o then values else expected_yield false s in
    s <- match to_data o with
         | DrPoisson => if v_covfit env then Raise RuntimeError else set_nobs (dr_pois dr nom) None s
         | DrNormal => if v_covfit env then set_nobs (dr_mvn dr nom) None s
                       else let var := if v_chi2 env then match variances with Some v => v | None => nom end else nom in
                            set_nobs (dr_gauss dr nom (map sqrt var)) variances s
         | DrNone => set_nobs nom variances s
         end ;;
    let s := set_x s (v_x0def env) in
    let s := if v_bb env then set_beta s (f_beta0 s) else s in
    let s := set_nexpnom s (expected_yield false s) in
    Ok (if to_params o then
          let s := match f_cov s with
                   | None => set_x s (dr_gaussx dr (f_x s) (map sqrt (f_varpre s)))
                   | Some c => if is_diag c then set_x s (dr_gaussx dr (f_x s) (map sqrt (diag_part c)))
                               else set_x s (dr_mvnx dr (f_x s) c)
                   end in
          randomize_postfit s
        else s).

  (** rabbit_fit.py:831 *)
  Definition blinded_fit (o : topts) (f : Z) : bool := (f =? 0)%Z || ((0 <? f)%Z && to_observed o).
  (** rabbit_fit.py:931-950: the state in which the prefit quantities are saved *)
  Definition prefit_state (o : topts) (f : Z) (values : vec) (variances : option vec) (s : fstate) : result fstate :=
    let s := defaultassign s in
    if (f =? -1)%Z then set_nobs (expected_yield false s) None s
    else if (f =? 0)%Z then set_nobs values None s
    else if (1 <=? f)%Z then toyassign o values variances s
    else Ok s.
  (** rabbit_fit.py:965-968: the state [fit] starts from *)
  Definition start_state (o : topts) (f : Z) (values : vec) (variances : option vec) (s : fstate) : result fstate :=
    s <- prefit_state o f values variances s ;; Ok (set_blinding (blinded_fit o f) s).

  (** *** what a fit may do to the fitter *)
  Inductive pop :=
  | PMinimise (x : vec)                    (* Fitter.minimize *)
  | PProfile (b : vec)                     (* Fitter._profile_beta *)
  | PCov (c : mat)                         (* fitter.cov.assign *)
  | PLoad (x : vec) (c : option mat)       (* load_fitresult *)
  | PScanTau (steps : list (R * vec))      (* lcurve.py:92-110: tau is set back *)
  | POptTau (steps : list (vec * R))       (* lcurve.py:148-236: tau is left at the optimum *)
  | PShift (x0 x : vec)                    (* global and non-profiled impacts: centres and values moved ... *)
  | PScan (params : list string) (x : vec) (* nll_scan, nll_scan2D: freeze, fit, defreeze *)
  | PGroup (members : list string) (ok : bool) (x : vec). (* asym_impacts.py:145-164 *)
  Definition already (s : fstate) : list string := fz_list (f_fz s).
  Definition pstep (s : fstate) (p : pop) : result fstate :=
    match p with
    | PMinimise x => Ok (set_x s x)
    | PProfile b => if v_bb env then Ok (set_beta s b) else Raise ValueError
    | PCov c => if v_hascov env then Ok (set_cov s (Some c)) else Raise TypeError
    | PLoad x c => match c with
                   | None => Ok (set_x s x)
                   | Some c => if v_hascov env then Ok (set_cov (set_x s x) (Some c)) else Raise RuntimeError
                   end
    | PScanTau steps =>
      let t0 := f_tau s in
      Ok (set_tau (fold_left (fun s st => set_x (set_tau s (fst st)) (snd st)) steps s) t0)
    | POptTau steps => Ok (fold_left (fun s st => set_tau (set_x s (fst st)) (f_tau s - snd st)) steps s)
    | PShift x0 x => Ok (set_x (set_x0 s x0) x)
    | PScan ps x =>
      z1 <- freeze_params (v_rx env) (v_parms env) (f_fz s) ps ;;
      z2 <- defreeze_params (v_rx env) (v_parms env) z1 ps ;;
      Ok (set_fz (set_x s x) z2)
    | PGroup members ok x =>
      let todo := filter (fun m => negb (smem m (already s))) members in
      z1 <- (match todo with [] => Ok (f_fz s) | _ => freeze_params (v_rx env) (v_parms env) (f_fz s) todo end) ;;
      z2 <- (match todo with [] => Ok z1 | _ => defreeze_params (v_rx env) (v_parms env) z1 todo end) ;;
      if ok then Ok (set_fz (set_x s x) z2) else Raise GenericException
    end.
  Fixpoint psteps (s : fstate) (ps : list pop) : result fstate :=
    match ps with [] => Ok s | p :: r => s' <- pstep s p ;; psteps s' r end.
End Session.

(** one iteration of the double loop: a fit, a data set, its random draws and what it does *)
Record fitrun := mkRun { r_f : Z; r_values : vec; r_variances : option vec; r_draws : draws; r_ops : list pop }.
(** rabbit_fit.py:909-986; any exception ends the session *)
Fixpoint session (env : senv) (o : topts) (s : fstate) (rs : list fitrun) : result fstate :=
  match rs with
  | [] => Ok s
  | r :: rest => s1 <- start_state env (r_draws r) o (r_f r) (r_values r) (r_variances r) s ;;
                 s2 <- psteps env s1 (r_ops r) ;; session env o s2 rest
  end.
(** rabbit_fit.py:828-830 *)
Definition expand_toys (toys : list Z) : list Z :=
  List.concat (map (fun x => if (x <=? 0)%Z then [x] else map (fun i => (1 + Z.of_nat i)%Z) (seq 0 (Z.to_nat x))) toys).

(** *** asym_impacts.py:95-190: the groups, the statistical column; [scan z t] is the interval of
    target [t] (NaN entries are [None]) found with the frozen set [z], or an exception *)
Section Grouped.
  Variable rx : regex.
  Variable parms : list string.
  Definition interval : Type := option R * option R.
  Variable scan : freeze_st -> string -> result interval.
  (** asym_impacts.py:156-160 *)
  Fixpoint scan_targets (z : freeze_st) (frozen_set targets : list string) : result (list interval) :=
    match targets with
    | [] => Ok []
    | t :: r => if smem t frozen_set then a <- scan_targets z frozen_set r ;; Ok ((None, None) :: a)
                else i <- scan z t ;; a <- scan_targets z frozen_set r ;; Ok (i :: a)
    end.
  (** asym_impacts.py:145-164 *)
  Definition scan_with_frozen (already targets members : list string) (z : freeze_st) : result (list interval) * freeze_st :=
    let todo := filter (fun m => negb (smem m already)) members in
    match (match todo with [] => Ok z | _ => freeze_params rx parms z todo end) with
    | Raise e => (Raise e, z)
    | Ok z1 =>
      let res := scan_targets z1 (members ++ already) targets in
      match (match todo with [] => Ok z1 | _ => defreeze_params rx parms z1 todo end) with
      | Raise e => (Raise e, z1)
      | Ok z2 => (res, z2)
      end
    end.
  Fixpoint scan_groups (already targets : list string) (groups : list (list string)) (z : freeze_st) : result (list (list interval)) * freeze_st :=
    match groups with
    | [] => (Ok [], z)
    | g :: r => match scan_with_frozen already targets g z with
                | (Raise e, z1) => (Raise e, z1)
                | (Ok a, z1) => match scan_groups already targets r z1 with
                                | (Raise e, z2) => (Raise e, z2)
                                | (Ok b, z2) => (Ok (a :: b), z2)
                                end
                end
    end.
  (** the total intervals first, then the groups and last the constrained nuisances *)
  Definition grouped_asym (targets : list string) (groups : list (list string)) (constrained : list string) (z : freeze_st)
    : result (list interval * list (list interval)) * freeze_st :=
    match scan_targets z [] targets with
    | Raise e => (Raise e, z)
    | Ok tot => match scan_groups (fz_list z) targets (groups ++ [constrained]) z with
                | (Raise e, z1) => (Raise e, z1)
                | (Ok a, z1) => (Ok (tot, a), z1)
                end
    end.
End Grouped.

(** *** rabbit_fit.py:909-986: the name of the group a fit is written to *)
Local Open Scope string_scope.
Local Open Scope list_scope.
Definition set_last (l : list string) (x : string) : list string := removelast l ++ [x].
(** rabbit_fit.py:935-956 *)
Definition group_step (f : Z) (pseudo : option string) (j : nat) (group : list string) : list string :=
  let group := if (f =? -1)%Z then group ++ ["asimov"]
               else if (1 <=? f)%Z then group ++ [("toy" ++ nat_str (Z.to_nat f))%string] else group in
  match pseudo with
  | None => group
  | Some n => if Nat.eqb j 0 then group ++ [n] else set_last group n
  end.
Fixpoint group_names (f : Z) (pseudo : list (option string)) (j : nat) (group : list string) : list string :=
  match pseudo with
  | [] => []
  | p :: r => let g := group_step f p j group in String.concat "_" g :: group_names f r (S j) g
  end.
(** [pseudo = None]: no --pseudoData, one data set *)
Definition fit_groups (pseudo : option (list string)) (f : Z) : list string :=
  group_names f (match pseudo with None => [None] | Some l => map Some l end) 0 ["results"].
Definition all_groups (pseudo : option (list string)) (fits : list Z) : list string :=
  List.concat (map (fit_groups pseudo) fits).
