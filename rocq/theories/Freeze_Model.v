(** Model of parameter selection and freezing: rabbit/fitter.py:33-59 (match_regexp_params) and
    555-578 (update_frozen_params, freeze_params, defreeze_params). Names are strings (the code
    decodes bytes before matching). The regular expression engine is a parameter: [rx e] is
    [None] if re.compile(e) raises, else the predicate of fullmatch. *)
From Coq Require Import List Arith Bool String.
From Verif Require Import PyList PyDict.
Import ListNotations.

Definition regex := string -> option (string -> bool).

Section Freeze.
  Variable rx : regex.

  (** fitter.py:46 *)
  Fixpoint compile_all (exprs : list string) : result (list (string -> bool)) :=
    match exprs with
    | [] => Ok []
    | e :: r => match rx e with
                | None => Raise GenericException
                | Some f => fs <- compile_all r ;; Ok (f :: fs)
                end
    end.
  (** fitter.py:48-59 *)
  Fixpoint match_loop (exprs : list string) (fs : list (string -> bool)) (names matched seen : list string) : list string :=
    match names with
    | [] => matched
    | s :: r =>
      if smem s exprs || existsb (fun f => f s) fs then
        if smem s seen then match_loop exprs fs r matched seen
        else match_loop exprs fs r (matched ++ [s]) (set_add s seen)
      else match_loop exprs fs r matched seen
    end.
  Definition match_params (exprs names : list string) : result (list string) :=
    fs <- compile_all exprs ;; Ok (match_loop exprs fs names [] []).

  (** self.frozen_params, frozen_params_mask, frozen_indices, floating_indices *)
  Record freeze_st := mkFz { fz_list : list string; fz_mask : list bool; fz_idx : list nat; fz_float : list nat }.
  (** np.where on a 1-D mask *)
  Definition where_true (m : list bool) : list nat :=
    map fst (filter (fun p => snd p) (combine (seq 0 (List.length m)) m)).
  Definition update_frozen (parms l : list string) : freeze_st :=
    let mask := map (fun p => smem p l) parms in
    mkFz l mask (where_true mask) (where_true (map negb mask)).
  Definition freeze_params (parms : list string) (st : freeze_st) (exprs : list string) : result freeze_st :=
    m <- match_params exprs parms ;; Ok (update_frozen parms (fz_list st ++ m)).
  Definition defreeze_params (parms : list string) (st : freeze_st) (exprs : list string) : result freeze_st :=
    m <- match_params exprs parms ;; Ok (update_frozen parms (filter (fun x => negb (smem x m)) (fz_list st))).

  Inductive fop := Freeze (exprs : list string) | Defreeze (exprs : list string).
  Definition fstep (parms : list string) (st : freeze_st) (o : fop) : result freeze_st :=
    match o with Freeze e => freeze_params parms st e | Defreeze e => defreeze_params parms st e end.
  (** a call that raises leaves the lists untouched; the caller may go on *)
  Definition fstep' (parms : list string) (st : freeze_st) (o : fop) : freeze_st :=
    match fstep parms st o with Ok st' => st' | Raise _ => st end.
  Definition frun (parms : list string) (st : freeze_st) (ops : list fop) : freeze_st :=
    fold_left (fstep' parms) ops st.
  (** fitter.py:449-455: nothing frozen *)
  Definition finit (parms : list string) : freeze_st := update_frozen parms [].
End Freeze.
