(** Model of the likelihood: rabbit/fitter.py:690-735 (effective parameters), 1796-1812
    (yields with beta), 2023-2135 (likelihood terms) and rabbit/bbstat/bbstat.py:435-900
    (profile_and_apply), over the reals. [tf.stop_gradient] is modelled with two copies of the
    parameter vector: [xc], treated as a constant by differentiation, and [xt], the tracked one;
    the value of the likelihood is at xc = xt. The numerical profile of gamma+full and the linear
    solves of the covariance fit are an arbitrary function of what the code hands them
    ([orc_newton], [orc_cov]; see BBCov_Model for the latter). Not modelled: indata.betavar, which
    only acts with full = True. *)
From Coq Require Import List Arith Bool String Reals.
From Verif Require Import PyList RBase BBStat_Model Yields_Model Writer_Model Ext_Model.
Import ListNotations.
Local Open Scope R_scope.

Definition slice {A} (a n : nat) (l : list A) : list A := firstn n (skipn a l).
Definition zipw {A B C} (f : A -> B -> C) (a : list A) (b : list B) : list C :=
  map (fun p => f (fst p) (snd p)) (combine a b).
(** tf.where(mask, stop_gradient(v), v): [c] constant copy, [t] tracked copy of v *)
Definition where_sg (mask : list bool) (c t : list R) : list R :=
  zipw (fun (m : bool) ct => if m then fst ct else snd ct) mask (combine c t).

(** parameter model: rabbit/param_models; compute(params, full) *)
Record pmodel := mkPm { pm_npoi : nat; pm_npou : nat; pm_allowneg : bool; pm_compute : bool -> list R -> rnorm }.
(** fitter state read by the effective parameters *)
Record eff := mkEff { ef_mask : list bool; ef_blind : option (list R * list R) }.

Section Eff.
  Variables (pm : pmodel) (nsyst : nat) (e : eff) (xc xt : list R).
  Definition enc (v : R) : R := if pm_allowneg pm then v else v * v.
  (** fitter.py:718-730 *)
  Definition get_poi : list R :=
    let sl := fun A (l : list A) => slice 0 (pm_npoi pm) l in
    let poi := where_sg (sl _ (ef_mask e)) (map enc (sl _ xc)) (map enc (sl _ xt)) in
    match ef_blind e with Some (op, _) => zipw Rmult poi op | None => poi end.
  (** fitter.py:703-716 *)
  Definition get_nui : list R :=
    let sl := fun A (l : list A) => slice (pm_npoi pm) (pm_npou pm) l in
    where_sg (sl _ (ef_mask e)) (sl _ xc) (sl _ xt).
  (** fitter.py:690-701 *)
  Definition get_theta : list R :=
    let sl := fun A (l : list A) => slice (pm_npoi pm + pm_npou pm) nsyst l in
    let th := where_sg (sl _ (ef_mask e)) (sl _ xc) (sl _ xt) in
    match ef_blind e with Some (_, ot) => zipw Rplus th ot | None => th end.
  (** fitter.py:732-735 *)
  Definition get_x : list R := get_poi ++ get_nui ++ get_theta.
End Eff.

(** *** bin-by-bin treatment: one row per bin *)
Record bbcfg := mkBB { bb_mode : bbmode; bb_type : bbtype; bb_min : R; bb_ent : nat -> list (R * R); bb_b0 : nat -> list R }.
Record binrow := mkRow { r_norm : list R; r_ent : list (R * R); r_b0 : list R; r_nobs : R; r_var : R }.
Record oracle := mkOrc { orc_newton : binrow -> list R; orc_cov : list binrow -> list (list R) }.
Inductive likelihood := Sep (l : lik) | Cov (W : list (list R)).

Section BB.
  Variables (bb : bbcfg) (orc : oracle).
  Definition row_ps (r : binrow) : list lite_proc := zipw (fun e n => (zero_var e, n)) (r_ent r) (r_norm r).
  Definition row_es (r : binrow) : list fentry :=
    zipw (fun en b0 => mkF (full_info (bb_min bb) (fst en)) b0 (snd en)) (combine (r_ent r) (r_norm r)) (r_b0 r).
  Definition profile_row (l : lik) (r : binrow) : list R :=
    match bb_mode bb with
    | Lite => [profile_lite l (bb_type bb) (lite_info (r_ent r) (bb_min bb)) (row_ps r) (r_nobs r) (r_var r) (nth 0 (r_b0 r) 0)]
    | Full => match profile_full l (bb_type bb) (row_es r) (r_nobs r) (r_var r) with
              | Some b => b
              | None => orc_newton orc r
              end
    end.
  (** bbstat.py:456-826: profiled beta of the first nbins rows, beta0 for the masked ones *)
  Definition profile_rows (lk : likelihood) (nbins : nat) (rows : list binrow) : list (list R) :=
    (match lk with Sep l => map (profile_row l) (firstn nbins rows) | Cov _ => orc_cov orc (firstn nbins rows) end)
    ++ map r_b0 (skipn nbins rows).
  (** bbstat.py:832-900 *)
  Definition apply_row (r : binrow) (beta : list R) : R :=
    match bb_mode bb with
    | Lite => sumR (apply_lite (bb_type bb) (lite_info (r_ent r) (bb_min bb)) (row_ps r) (nth 0 beta 0))
    | Full => sumR (apply_full (bb_type bb) (row_es r) beta)
    end.
  (** bbstat.py:379-418, reduced *)
  Definition lbeta_row (r : binrow) (beta : list R) : R :=
    match bb_mode bb with
    | Lite => lbeta_bin (bb_type bb) (lite_info (r_ent r) (bb_min bb)) (nth 0 (r_b0 r) 0) (nth 0 beta 0)
    | Full => sumR (zipw (fun eb b => lbeta_bin (bb_type bb) (full_info (bb_min bb) (fst eb)) (snd eb) b)
                         (combine (r_ent r) (r_b0 r)) beta)
    end.
End BB.

(** fitter.py:2046-2074 reduced *)
Definition ln_term (lk : likelihood) (nobs varnobs nexp : list R) : R :=
  match lk with
  | Sep l => sumR (map (fun b => ln_bin l (nth b nobs 0) (nth b varnobs 0) (nth b nexp 0)) (seq 0 (List.length nexp)))
  | Cov W => let r := zipw Rminus nobs nexp in 1 / 2 * dot r (map (fun row => dot row r) W)
  end.
(** fitter.py:2062-2066, full Poisson form; [lgam] is tf.math.lgamma *)
Definition ln_full (lgam : R -> R) (nobs nexp : list R) : R :=
  sumR (map (fun b => let n := nth b nobs 0 in let mu := nth b nexp 0 in
                      - n * ln (if Reqb n 0 then 1 else mu) + mu + lgam (n + 1)) (seq 0 (List.length nexp))).
(** fitter.py:2023-2043 *)
Definition lc_term (cw x x0 : list R) : R :=
  sumR (zipw (fun c d => c * (1 / 2) * (d * d)) cw (zipw Rminus x x0)).
Definition lc_full (cw x x0 : list R) : R :=
  sumR (zipw (fun c d => c * (1 / 2) * (d * d) + (if Rltb 0 c then 9189385332046727 / 10000000000000000 - 1 / 2 * ln c else 0))
             cw (zipw Rminus x x0)).

Record problem := mkPb { pb_data : indata; pb_t : tensors R; pb_model : pmodel; pb_lik : likelihood;
  pb_nobs : list R; pb_var : list R; pb_bb : option bbcfg; pb_orc : oracle; pb_cw : list R; pb_x0 : list R;
  pb_regs : list (list R -> list R -> R); pb_tau : R; pb_ext : list ext_tf }.

Definition row_of (P : problem) (bb : bbcfg) (nc : nat -> nat -> R) (b : nat) : binrow :=
  mkRow (map (nc b) (seq 0 (in_nproc (pb_data P)))) (bb_ent bb b) (bb_b0 bb b) (nth b (pb_nobs P) 0) (nth b (pb_var P) 0).
(** fitter.py:1796-1812 and 2076-2106: (nexp, lbeta) *)
Definition yields_beta (P : problem) (full : bool) (poi_nui theta : list R) : result (list R * R) :=
  y <- yields (pb_data P) (pb_t P) (pm_compute (pb_model P) full poi_nui) theta full ;;
  let '(nexp, nc) := y in
  match pb_bb P with
  | None => Ok (nexp, 0)
  | Some bb =>
    let rows := map (row_of P bb nc) (seq 0 (List.length nexp)) in
    let betas := profile_rows bb (pb_orc P) (pb_lik P) (in_nbins (pb_data P)) rows in
    (* lbeta runs over all bins of the file; bins beyond the rows keep beta0 *)
    let tail := map (row_of P bb nc) (seq (List.length nexp) (in_nbinsfull (pb_data P) - List.length nexp)) in
    Ok (zipw (apply_row bb) rows betas,
        sumR (zipw (lbeta_row bb) rows betas) + sumR (map (fun r => lbeta_row bb r (r_b0 r)) tail))
  end.
(** fitter.py:2109-2128 *)
Definition nll_ad (P : problem) (e : eff) (xc xt : list R) : result R :=
  let pm := pb_model P in
  let poi := get_poi pm e xc xt in
  let nui := get_nui pm e xc xt in
  let theta := get_theta pm (in_nsyst (pb_data P)) e xc xt in
  let full := negb (Nat.eqb (List.length (pb_regs P)) 0) in
  let x := get_x pm (in_nsyst (pb_data P)) e xc xt in
  yb <- yields_beta P full (poi ++ nui) theta ;;
  let '(nexpfull, lbeta) := yb in
  let nexp := firstn (in_nbins (pb_data P)) nexpfull in
  let lpen := sumR (map (fun reg => reg x nexpfull * exp (2 * pb_tau P)) (pb_regs P)) in
  (* the external terms read self.x directly *)
  Ok (ln_term (pb_lik P) (pb_nobs P) (pb_var P) nexp + lc_term (pb_cw P) x (pb_x0 P) + lbeta + lpen
      + ext_nll (pb_ext P) xt).
Definition nll (P : problem) (e : eff) (x : list R) : result R := nll_ad P e x x.
