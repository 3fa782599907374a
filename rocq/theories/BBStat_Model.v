(** Model of rabbit/bbstat/bbstat.py (BinByBinStat) and bbstat/formulas.py over the reals.
    One bin at a time; the per-process axis is a list. float64 rounding is not modelled.
    Not modelled here: the numerical (Newton) profile of "gamma"+"full" (see BBGamma_Model.v), [betavar]. *)
From Coq Require Import Reals List Bool.
From Verif Require Export BBStat_Types.
From Verif Require Import RBase.
Import ListNotations.
Open Scope R_scope.

(** formulas.py:10-12 solve_quad_eq *)
Definition solve_quad_eq (a b c : R) : R :=
  (1/2) * (- b + sqrt (b * b - 4 * a * c)) / a.

(** tf division: non-finite (None) when the denominator vanishes *)
Definition tfdiv (x y : R) : option R := if Reqb y 0 then None else Some (x / y).

(** bbstat.py:76-85 choice of the type; [None] is "automatic" *)
Definition choose_type (opt : option bbtype) (covfit : bool) (m : bbmode) : bbtype :=
  match opt with
  | Some t => t
  | None => if covfit then NormalAdd else match m with Full => NormalMult | Lite => Gamma end
  end.

(** bbstat.py:230-235 default_beta0 *)
Definition default_beta0 (t : bbtype) : R :=
  match t with NormalAdd => 0 | _ => 1 end.

(** bbstat.py:237-245 set_beta0: cached log of beta0 *)
Definition logbeta0_of (beta0 : R) : R := ln (if Reqb beta0 0 then 1 else beta0).

(** Per-bin quantities of lite mode, bbstat.py:148-193. [entries] lists (sumw, sumw2) of the
    processes of the bin (the 2-D input; the 1-D legacy input is the one-element list). *)
Record bininfo := mkBin { bi_varbeta : R; bi_sumw : R; bi_mask : bool; bi_kstat : R }.

Definition betamask_of (varbeta sumw minbb : R) : bool :=
  let base := Reqb varbeta 0 || Reqb sumw 0 in
  if Rltb 0 minbb then
    base || Rltb (sumw * sumw / (if base then 1 else varbeta)) minbb
  else base.

Definition mkinfo (varbeta sumw minbb : R) : bininfo :=
  let m := betamask_of varbeta sumw minbb in
  mkBin varbeta sumw m (if m then 1 else sumw * sumw / varbeta).

Definition lite_info (entries : list (R * R)) (minbb : R) : bininfo :=
  mkinfo (sumR (map snd entries))
         (sumR (map (fun e => if Reqb (snd e) 0 then 0 else fst e) entries)) minbb.

(** full mode: one info per (bin, process), bbstat.py:149-151 and 172-193 *)
Definition full_info (minbb : R) (e : R * R) : bininfo := mkinfo (snd e) (fst e) minbb.

(** A process of a lite-mode bin at a parameter point: zero-variance flag
    (proc_zero_var_mask, bbstat.py:158) and predicted yield. *)
Definition lite_proc := (bool * R)%type.
Definition zero_var (e : R * R) : bool := Reqb (snd e) 0.

(** bbstat.py:476-488 n_active / n_zero_var *)
Definition n_active (ps : list lite_proc) : R :=
  sumR (map (fun p : lite_proc => if fst p then 0 else snd p) ps).
Definition n_zero_var (ps : list lite_proc) : R :=
  sumR (map (fun p : lite_proc => if fst p then snd p else 0) ps).
Definition nexp_of (ps : list lite_proc) : R := sumR (map snd ps).
(** bbstat.py:492 *)
Definition safe_pos (x : R) : R := if Rltb 0 x then x else 1.

(** profile_and_apply, lite branches (bbstat.py:499-507, 567-575, 596-602, 677-692, 752-772,
    789-800): profiled beta of one bin *)
Definition profile_lite (l : lik) (t : bbtype) (bi : bininfo) (ps : list lite_proc)
  (nobs varnobs beta0 : R) : R :=
  let n := safe_pos (n_active ps) in
  let z := n_zero_var ps in
  let nexp := nexp_of ps in
  let k := bi_kstat bi in
  let varbeta := bi_varbeta bi in
  let sbeta := sqrt varbeta in
  match l, t with
  | Chisq, Gamma =>
      let b := solve_quad_eq (n * n) (k * varnobs + (z - nobs) * n) (- k * varnobs * beta0) in
      if bi_mask bi then beta0 else b
  | Chisq, NormalMult =>
      let b := ((nobs - z) * n / varnobs + k * beta0) / (k + n * n / varnobs) in
      if bi_mask bi then beta0 else b
  | Chisq, NormalAdd =>
      (sbeta * (nobs - nexp) + varnobs * beta0) / (varnobs + varbeta)
  | Poisson, Gamma =>
      let b := solve_quad_eq (n * (n + k)) (n * (z - nobs - beta0 * k) + k * z)
                             (- beta0 * k * z) in
      if bi_mask bi then beta0 else b
  | Poisson, NormalMult =>
      let b := solve_quad_eq (k * n) (n * n - k * beta0 * n + k * z)
                             (n * (z - nobs) - k * beta0 * z) in
      if bi_mask bi then beta0 else b
  | Poisson, NormalAdd =>
      let a := if Reqb varbeta 0 then 1 else sbeta in
      let b := solve_quad_eq a (varbeta + nexp - sbeta * beta0)
                             (sbeta * (nexp - nobs) - nexp * beta0) in
      if Reqb varbeta 0 then beta0 else b
  end.

(** application of beta in lite mode with a per-process axis, bbstat.py:845-855, 869-886:
    the rescaled per-process yields; nexp is their sum *)
Definition apply_lite (t : bbtype) (bi : bininfo) (ps : list lite_proc) (beta : R) : list R :=
  match t with
  | Gamma | NormalMult =>
      map (fun p : lite_proc => snd p * (if fst p || bi_mask bi then 1 else beta)) ps
  | NormalAdd =>
      let nb := safe_pos (n_active ps) in
      map (fun p : lite_proc =>
             snd p + sqrt (bi_varbeta bi) * beta * (if fst p then 0 else snd p) / nb) ps
  end.

(** constraint term of one entry, reduced form, bbstat.py:379-413 *)
Definition lbeta_bin (t : bbtype) (bi : bininfo) (beta0 beta : R) : R :=
  match t with
  | Gamma =>
      let k := bi_kstat bi in
      let logbeta := ln (if Reqb beta0 0 then 1 else beta) in
      - k * beta0 * (logbeta - logbeta0_of beta0) + k * (beta - beta0)
  | NormalMult => if bi_mask bi then 0 else (1/2) * ((beta - beta0) * (beta - beta0)) * bi_kstat bi
  | NormalAdd => (1/2) * ((beta - beta0) * (beta - beta0))
  end.

(** one bin of fitter.py:2046-2074 _compute_ln (reduced) and 773-786 set_nobs (lognobs) *)
Definition lognobs_of (nobs : R) : R := ln (if Reqb nobs 0 then 1 else nobs).
Definition ln_bin (l : lik) (nobs varnobs nexp : R) : R :=
  match l with
  | Chisq => (1/2) * ((nexp - nobs) * (nexp - nobs) / varnobs)
  | Poisson =>
      let nexpsafe := if Reqb nobs 0 then 1 else nexp in
      - nobs * (ln nexpsafe - lognobs_of nobs) + nexp - nobs
  end.

(** the part of the loss that depends on the beta of a lite-mode bin *)
Definition loss_lite (l : lik) (t : bbtype) (bi : bininfo) (ps : list lite_proc)
  (nobs varnobs beta0 beta : R) : R :=
  ln_bin l nobs varnobs (sumR (apply_lite t bi ps beta)) + lbeta_bin t bi beta0 beta.

(** ---- full mode: an entry per process: info, beta0 and predicted yield ---- *)
Record fentry := mkF { fe_info : bininfo; fe_b0 : R; fe_n : R }.

Definition n2kstat (e : fentry) : R :=
  if bi_mask (fe_info e) then 0 else fe_n e * fe_n e / bi_kstat (fe_info e).
Definition fsbeta (e : fentry) : R := sqrt (bi_varbeta (fe_info e)).

(** profile_and_apply, full branches (bbstat.py:577-594, 603-612, 773-787, 801-808);
    gamma+full is the numerical Newton profile and not included *)
Definition profile_full (l : lik) (t : bbtype) (es : list fentry) (nobs varnobs : R)
  : option (list R) :=
  match l, t with
  | _, Gamma => None
  | Chisq, NormalMult =>
      let s := sumR (map n2kstat es) in
      let nbeta := (nobs / varnobs * s + sumR (map (fun e => fe_n e * fe_b0 e) es))
                   / (1 + 1 / varnobs * s) in
      Some (map (fun e =>
        if bi_mask (fe_info e) then fe_b0 e
        else fe_b0 e + 1 / varnobs * (nobs - nbeta) * fe_n e / bi_kstat (fe_info e)) es)
  | Chisq, NormalAdd =>
      let nexp := sumR (map fe_n es) in
      let vs := sumR (map (fun e => bi_varbeta (fe_info e)) es) in
      let nbeta := (sumR (map (fun e => fsbeta e * fe_b0 e) es) + vs / varnobs * (nobs - nexp))
                   / (1 + vs / varnobs) in
      Some (map (fun e => fe_b0 e - fsbeta e * ((nexp + nbeta - nobs) / varnobs)) es)
  | Poisson, NormalMult =>
      let p := sumR (map (fun e => n2kstat e - fe_b0 e * fe_n e) es) in
      let q := - nobs * sumR (map n2kstat es) in
      match tfdiv nobs (solve_quad_eq 1 p q) with
      | None => None
      | Some r => Some (map (fun e =>
          if bi_mask (fe_info e) then fe_b0 e
          else fe_b0 e + (r - 1) * fe_n e / bi_kstat (fe_info e)) es)
      end
  | Poisson, NormalAdd =>
      let q := - nobs * sumR (map (fun e => bi_varbeta (fe_info e)) es) in
      let p := sumR (map (fun e => bi_varbeta (fe_info e) - fsbeta e * fe_b0 e - fe_n e) es) in
      match tfdiv nobs (solve_quad_eq 1 p q) with
      | None => None
      | Some r => Some (map (fun e => fe_b0 e + (r - 1) * fsbeta e) es)
      end
  end.

(** application in full mode, bbstat.py:842-843 and 866-868 *)
Definition apply_full (t : bbtype) (es : list fentry) (betas : list R) : list R :=
  map (fun eb : fentry * R =>
    let (e, b) := eb in
    match t with
    | NormalAdd => fe_n e + fsbeta e * b
    | _ => if bi_mask (fe_info e) then fe_n e else b * fe_n e
    end) (combine es betas).

Definition loss_full (l : lik) (t : bbtype) (es : list fentry) (nobs varnobs : R)
  (betas : list R) : R :=
  ln_bin l nobs varnobs (sumR (apply_full t es betas))
  + sumR (map (fun eb : fentry * R => lbeta_bin t (fe_info (fst eb)) (fe_b0 (fst eb)) (snd eb))
              (combine es betas)).

(** constant-including ("full_nll") forms, bbstat.py:385-393 and 405-413; [lgamma] is tf's
    log-gamma. The normal-additive form adds tf.shape(sigma2)*0.9189... = [nb]*0.9189... to
    every entry in lite mode. normal-multiplicative raises NotImplementedError (None). *)
Definition half_log_2pi : R := 9189385332046727 / 10000000000000000.
Definition lbeta_bin_full (lgamma : R -> R) (nb : R) (t : bbtype) (bi : bininfo) (beta0 beta : R)
  : option R :=
  match t with
  | Gamma =>
      let k := bi_kstat bi in
      let logbeta := ln (if Reqb beta0 0 then 1 else beta) in
      Some (- k * beta0 * logbeta + k * beta + lgamma (k * beta0) + - k * beta0 * ln k)
  | NormalMult => None
  | NormalAdd => Some (lbeta_bin NormalAdd bi beta0 beta + nb * half_log_2pi + (1/2) * ln (1 / bi_kstat bi))
  end.
