(** Bins as in BBStat_Spec, with optional data, and when a nuisance is not at the edge of its range. *)
From Coq Require Import List Reals.
From Verif Require Import BBStat_Spec.
Local Open Scope R_scope.

Record sbin := mkSB { s_procs : list proc; s_obs : option (R * R); s_beta0 : R }.
(** the Poisson expectation and a Gamma distributed nuisance are positive *)
Definition inside (l : lik) (t : bbtype) (s : sbin) (beta : R) : Prop :=
  (l = Poisson -> s_obs s <> None -> 0 < expectation t (s_procs s) beta) /\ (t = Gamma -> 0 < beta).
Definition sane (l : lik) (t : bbtype) (s : sbin) : Prop :=
  (forall p, In p (s_procs s) -> 0 <= p_sumw2 p) /\ 0 < yield_mc (s_procs s) /\
  (t = Gamma -> 0 < s_beta0 s) /\
  match s_obs s with Some (nobs, var) => good_inputs l t (s_procs s) nobs var (s_beta0 s) | None => True end.
(** data in every bin *)
Definition filled (l : lik) (s : sbin) : Prop := l = Poisson -> forall nobs var, s_obs s = Some (nobs, var) -> 0 < nobs.
