(** The objective of a bin with one gamma-constrained nuisance per process, independent of how it is minimised. *)
From Coq Require Import Reals List.
From Verif Require Import BBStat_Spec.
Import ListNotations.
Open Scope R_scope.

Section GammaSpec.
  Variable active : proc -> bool.
  Fixpoint gamma_constraints (es : list (proc * R)) (bs : list R) : R :=
    match es, bs with
    | (p, b0) :: es', b :: bs' => (if active p then gamma_constraint (stat1 p) b0 b else 0) + gamma_constraints es' bs'
    | _, _ => 0
    end.
  Fixpoint gamma_doms (es : list (proc * R)) (bs : list R) : Prop :=
    match es, bs with
    | (p, b0) :: es', b :: bs' => (active p = true -> gamma_dom b0 b) /\ gamma_doms es' bs'
    | [], [] => True
    | _, _ => False
    end.
  Definition gamma_objective (l : lik) (es : list (proc * R)) (nobs var : R) (bs : list R) : R :=
    dev l var nobs (expectation_full Gamma active es bs) + gamma_constraints es bs.
  Definition gamma_admissible (l : lik) (es : list (proc * R)) (nobs : R) (bs : list R) : Prop :=
    gamma_doms es bs /\ dev_dom l nobs (expectation_full Gamma active es bs).
  (** processes with MC uncertainty have a positive centre, the others are not varied; no negative yields *)
  Definition gamma_entry (e : proc * R) : Prop :=
    0 <= p_sumw2 (fst e) /\ 0 <= p_yield (fst e) /\ (active (fst e) = true -> 0 < snd e) /\ (active (fst e) = false -> snd e = 1).
  Definition gamma_inputs (minstat : R) (l : lik) (es : list (proc * R)) (nobs var : R) : Prop :=
    (forall p, active p = true <-> usable1 minstat p) /\ match l with Poisson => 0 <= nobs | Chisq => 0 < var end /\ Forall gamma_entry es.
  (** some process with MC uncertainty is expected in the bin *)
  Definition contributes (es : list (proc * R)) : Prop := exists e, In e es /\ active (fst e) = true /\ 0 < p_yield (fst e).
  (** the same values wherever there is something to vary *)
  Fixpoint agree (es : list (proc * R)) (bs cs : list R) : Prop :=
    match es, bs, cs with
    | (p, _) :: es', b :: bs', c :: cs' => (active p = true -> b = c) /\ agree es' bs' cs'
    | [], [], [] => True
    | _, _, _ => False
    end.
End GammaSpec.
(** f falls strictly before m and grows strictly after it *)
Definition valley (f : R -> R) (m : R) : Prop := (forall a b, a < b -> b <= m -> f b < f a) /\ (forall a b, m <= a -> a < b -> f a < f b).
(** the slope vanishes *)
Definition stationary (f : R -> R) (u : R) : Prop := derivable_pt_lim f u 0.
