(** What clipping is for: templates are raised to the threshold, everything else is as without clipping. *)
From Coq Require Import List Arith Bool String Reals.
From Verif Require Import PyList PyDict Names_Model Writer_Model.
Import ListNotations.
Local Open Scope nat_scope.
Local Open Scope list_scope.

(** the threshold given for file [n] is that of the last pair with this name *)
Definition given {V} (parse : string -> option V) (args : list string) (n : string) (t : V) : Prop :=
  exists i x, nth_error args (2 * i) = Some n /\ nth_error args (2 * i + 1) = Some x /\ parse x = Some t /\
    forall j, i < j -> nth_error args (2 * j) <> Some n.
Definition not_given (args : list string) (n : string) : Prop := forall i, nth_error args (2 * i) <> Some n.

(** templates of a histogram replaced by [f] of their values *)
Definition on_hist {V} (f : V -> V) (h : histo V) : histo V :=
  match h with HDense v s => HDense (map f v) (map f s) | h => h end.
Definition on_op {V} (f : V -> V) (o : op V) : op V :=
  match o with
  | AddProcess h p c s v => AddProcess (on_hist f h) p c s v
  | AddSystematic (SPair u d) n p c k m y ax kw => AddSystematic (SPair (on_hist f u) (on_hist f d)) n p c k m y ax kw
  | o => o
  end.
Definition sum_of (l : list R) : R := fold_right Rplus 0%R l.
