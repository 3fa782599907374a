(** What the written workspace should contain, stated over the history of declarations only. *)
From Coq Require Import List Arith Bool String Lia.
From Verif Require Import PyList PyDict Num Names_Model Writer_Model.
Import ListNotations.
Local Open Scope string_scope.
Local Open Scope list_scope.

(** the dictionary built by assigning the pairs in order *)
Definition dict_of {B} (l : list (string * B)) : dict B :=
  fold_left (fun d kv => dset (fst kv) (snd kv) d) l [].

(** half-open ranges that follow one another from [a] to [b] *)
Fixpoint tiles (a b : nat) (r : list (string * (nat * nat))) : Prop :=
  match r with
  | [] => a = b
  | (_, (s, e)) :: r' => s = a /\ s <= e /\ tiles e b r'
  end.

Section Spec.
  Context {V : Type} {NV : Num V}.

  (** *** channels: declarations with the automatic names resolved ("ch" and the number of
      distinct channels declared before) *)
  Fixpoint chan_decls (seen : list string) (ops : list (op V)) : list (string * chinfo) :=
    match ops with
    | [] => []
    | AddChannel n a m f :: r =>
        let nm := match n with Some x => x
                  | None => ("ch" ++ nat_str (List.length seen))%string end in
        (nm, mkCh a m f) :: chan_decls (set_add nm seen) r
    | _ :: r => chan_decls seen r
    end.
  (** no channel is declared both masked and unmasked *)
  Definition flags_stable (d : list (string * chinfo)) : Prop :=
    forall n i j, In (n, i) d -> In (n, j) d -> ch_masked i = ch_masked j.
  Definition isize (i : chinfo) : nat := axes_size (ch_axes i) (ch_flow i).

  (** *** processes: (name, is signal) *)
  Definition proc_decls (ops : list (op V)) : list (string * bool) :=
    flat_map (fun o => match o with AddProcess _ n _ s _ => [(n, s)] | _ => [] end) ops.

  (** *** nuisance parameters declared by an operation *)
  Definition syst_decls (o : op V) : list (string * kwargs) :=
    match o with
    | AddSystematic h n _ _ _ _ m _ kw =>
        match h, m with
        | SPair _ _, Linear | SPair _ _, Quadratic =>
            [((n ++ "SymDiff")%string, kw); ((n ++ "SymAvg")%string, kw)]
        | _, _ => [(n, kw)]
        end
    | AddNormSystematic n _ _ _ _ kw => [(n, kw)]
    | _ => []
    end.
  Definition all_systs (ops : list (op V)) : list (string * kwargs) := flat_map syst_decls ops.
  Definition declared (ops : list (op V)) (s : string) : Prop := exists kw, In (s, kw) (all_systs ops).
  Definition declared_unconstrained ops s : Prop :=
    exists kw, In (s, kw) (all_systs ops) /\ kw_constrained kw = false.
  Definition declared_constrained ops s : Prop :=
    exists kw, In (s, kw) (all_systs ops) /\ kw_constrained kw = true.
  Definition declared_noi ops s : Prop :=
    exists kw, In (s, kw) (all_systs ops) /\ kw_noi kw = true.
  (** groups default to the nuisance's own name *)
  Definition groups_of (s : string) (kw : kwargs) : list string :=
    match kw_groups kw with None => [s] | Some g => g end.
  Definition declared_in_group ops g s : Prop :=
    exists kw, In (s, kw) (all_systs ops) /\ In g (groups_of s kw).
  (** no nuisance is declared constrained in one call and unconstrained in another *)
  Definition constraint_stable (ops : list (op V)) : Prop :=
    forall s, ~ (declared_constrained ops s /\ declared_unconstrained ops s).
End Spec.
