(** Bins of processes with their simulated events, as in BBStat_Spec; what the derivatives of a bin are derivatives of. *)
From Coq Require Import List Reals.
From Verif Require Import BBStat_Model BBStat_Spec.
Import ListNotations.
Local Open Scope R_scope.

Record sfull := mkSF { sf_es : list (proc * R); sf_obs : option (R * R) }.
(** variances are not negative, nuisances without effect have centre one, data are sensible *)
Definition sane_full (active : proc -> bool) (l : lik) (t : bbtype) (s : sfull) : Prop :=
  Forall (fun e => 0 <= p_sumw2 (fst e) /\ (t <> NormalAdd -> active (fst e) = false -> snd e = 1)) (sf_es s) /\
  match sf_obs s with Some (nobs, var) => match l with Poisson => 0 <= nobs | Chisq => 0 < var end | None => True end.
(** entry [i] replaced *)
Fixpoint setn (i : nat) (v : R) (l : list R) : list R :=
  match l, i with [], _ => [] | _ :: r, O => v :: r | x :: r, S j => x :: setn j v r end.
