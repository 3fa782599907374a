(** Textbook form of the bin-by-bin (Barlow-Beeston) objective, independent of how it is
    solved. A bin is a list of processes (sumw, sumw2, predicted yield). *)
From Coq Require Import Reals List.
From Verif Require Export BBStat_Types.
Import ListNotations.
Open Scope R_scope.

(** [x] minimises [f] over the admissible set [D] (and is admissible). *)
Definition minimises {A} (D : A -> Prop) (f : A -> R) (x : A) : Prop :=
  D x /\ forall y, D y -> f x <= f y.

Record proc := mkProc { p_sumw : R; p_sumw2 : R; p_yield : R }.

(** sum of [g] over the processes that have (b = true) / have not (b = false) an MC
    statistical uncertainty *)
Fixpoint sum_mcstat (b : bool) (g : proc -> R) (ps : list proc) : R :=
  match ps with
  | [] => 0
  | p :: r =>
      (if Req_EM_T (p_sumw2 p) 0 then (if b then 0 else g p) else (if b then g p else 0))
      + sum_mcstat b g r
  end.

(** expectation carrying MC statistics, expectation without, total variance, effective
    number of MC events *)
Definition yield_mc ps := sum_mcstat true p_yield ps.
Definition yield_exact ps := sum_mcstat false p_yield ps.
Definition mc_sumw ps := sum_mcstat true p_sumw ps.
Definition mc_variance ps := sum_mcstat true p_sumw2 ps.
Definition n_effective ps := (mc_sumw ps) ^ 2 / mc_variance ps.

(** the bin has a usable MC statistical uncertainty *)
Definition usable (minstat : R) ps : Prop :=
  mc_variance ps <> 0 /\ mc_sumw ps <> 0 /\ (0 < minstat -> minstat <= n_effective ps).

(** deviance terms: 0 at nexp = nobs *)
Definition poisson_dev (nobs nexp : R) : R :=
  nexp - nobs - (if Req_EM_T nobs 0 then 0 else nobs * ln (nexp / nobs)).
Definition chisq_dev (var nobs nexp : R) : R := (nexp - nobs) ^ 2 / (2 * var).

(** admissible Poisson expectations *)
Definition poisson_dom (nobs nexp : R) : Prop := 0 <= nexp /\ (nobs <> 0 -> 0 < nexp).

(** constraint terms, 0 at beta = beta0 *)
Definition gamma_constraint (k beta0 beta : R) : R :=
  k * (beta - beta0) - (if Req_EM_T beta0 0 then 0 else k * beta0 * ln (beta / beta0)).
Definition gamma_dom (beta0 beta : R) : Prop := 0 <= beta /\ (beta0 <> 0 -> 0 < beta).
Definition gauss_constraint (k beta0 beta : R) : R := k * (beta - beta0) ^ 2 / 2.

Definition dev (l : lik) (var nobs nexp : R) : R :=
  match l with Poisson => poisson_dev nobs nexp | Chisq => chisq_dev var nobs nexp end.
Definition dev_dom (l : lik) (nobs nexp : R) : Prop :=
  match l with Poisson => poisson_dom nobs nexp | Chisq => True end.
Definition constraint (t : bbtype) (k beta0 beta : R) : R :=
  match t with
  | Gamma => gamma_constraint k beta0 beta
  | NormalMult => gauss_constraint k beta0 beta
  | NormalAdd => gauss_constraint 1 beta0 beta
  end.
Definition constraint_dom (t : bbtype) (beta0 beta : R) : Prop :=
  match t with Gamma => gamma_dom beta0 beta | _ => True end.

(** *** one nuisance per bin (lite) *)
Definition expectation (t : bbtype) (ps : list proc) (beta : R) : R :=
  match t with
  | NormalAdd => yield_exact ps + yield_mc ps + sqrt (mc_variance ps) * beta
  | _ => yield_exact ps + yield_mc ps * beta
  end.
Definition objective (l : lik) (t : bbtype) (ps : list proc) (nobs var beta0 beta : R) : R :=
  dev l var nobs (expectation t ps beta) + constraint t (n_effective ps) beta0 beta.
Definition admissible (l : lik) (t : bbtype) (ps : list proc) (nobs beta0 beta : R) : Prop :=
  dev_dom l nobs (expectation t ps beta) /\ constraint_dom t beta0 beta.

(** domain of the inputs *)
Definition good_inputs (l : lik) (t : bbtype) (ps : list proc) (nobs var beta0 : R) : Prop :=
  match l with Poisson => 0 <= nobs | Chisq => 0 < var end /\
  match t with Gamma => 0 <= beta0 | _ => True end /\
  match l, t with Poisson, Gamma => 0 <= yield_exact ps | _, _ => True end.

(** *** one nuisance per (bin, process) (full); entries are processes with their centre *)
Definition usable1 (minstat : R) (p : proc) : Prop := usable minstat [p].
Definition stat1 (p : proc) : R := (p_sumw p) ^ 2 / p_sumw2 p.

Section FullSpec.
  Variable (t : bbtype).
  Variable (active : proc -> bool).  (* decides [usable1] *)
  Fixpoint expectation_full (es : list (proc * R)) (bs : list R) : R :=
    match es, bs with
    | (p, _) :: es', b :: bs' =>
        (match t with
         | NormalAdd => p_yield p + sqrt (p_sumw2 p) * b
         | _ => if active p then p_yield p * b else p_yield p
         end) + expectation_full es' bs'
    | _, _ => 0
    end.
  Fixpoint constraint_full (es : list (proc * R)) (bs : list R) : R :=
    match es, bs with
    | (p, b0) :: es', b :: bs' =>
        (match t with
         | NormalAdd => gauss_constraint 1 b0 b
         | _ => if active p then gauss_constraint (stat1 p) b0 b else 0
         end) + constraint_full es' bs'
    | _, _ => 0
    end.
  Definition objective_full (l : lik) (es : list (proc * R)) (nobs var : R) (bs : list R) : R :=
    dev l var nobs (expectation_full es bs) + constraint_full es bs.
  Definition admissible_full (l : lik) (es : list (proc * R)) (nobs : R) (bs : list R) : Prop :=
    length bs = length es /\ dev_dom l nobs (expectation_full es bs).
End FullSpec.
