(** What a nuisance should do to the yields of a bin, process by process. *)
From Coq Require Import List Reals Bool.
From Verif Require Import BBStat_Model.
Import ListNotations.
Local Open Scope R_scope.

(** yields of the processes with and without uncertainty *)
Fixpoint yield_if (k : bool) (zs : list bool) (rows : list R) : R :=
  match zs, rows with z :: zs, r :: rows => (if Bool.eqb z k then r else 0) + yield_if k zs rows | _, _ => 0 end.
