(** What pseudodata and data should be. *)
From Coq Require Import List Arith Bool String.
From Verif Require Import PyList PyDict Num Names_Model Writer_Model Pseudo_Model.
Import ListNotations.
Local Open Scope string_scope.
Local Open Scope list_scope.

Section PSpec.
  Context {V : Type}.
  (** the named columns of a file *)
  Definition column (m : mat V) (k : nat) : list V := map (fun b => m_at m b k) (seq 0 (m_rows m)).
  (** [v] is stored in the file under the name [n] *)
  Definition stored_as (names : list string) (m : mat V) (n : string) (v : list V) : Prop :=
    exists k, nth_error names k = Some n /\ v = column m k.
  (** a file whose arrays have one column per name *)
  Definition consistent (f : pfile V) (names : list string) (obs : mat V) : Prop :=
    pf_names f = Some names /\ pf_obs f = Some obs /\ m_cols obs = List.length names /\
    match pf_var f with Some v => m_cols v = List.length names | None => True end.

  (** (channel, name, values) of the pseudodata a history adds; a call without name takes the
      number of names so far *)
  Fixpoint pseudo_log (seen : list string) (ops : list (op V)) : list (string * string * list V) :=
    match ops with
    | [] => []
    | AddPseudodata n ch v :: r =>
        let nm := match n with Some n => n | None => ("pseudodata_" ++ nat_str (List.length seen))%string end in
        (ch, nm, v) :: pseudo_log (set_add nm seen) r
    | _ :: r => pseudo_log seen r
    end.
  Definition data_log (ops : list (op V)) : list (string * (list V * list V)) :=
    flat_map (fun o => match o with AddData ch v w => [(ch, (v, w))] | _ => [] end) ops.
End PSpec.
