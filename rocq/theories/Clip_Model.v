(** The clipping of templates in bin/merge_inputs.py: 13-18 clip_hist, 117-123 --clipTensors, 152-157.

    The rest of the script is as in Merge_Model. Simplifications: float() of an argument is [parse]. The histogram of the
    variations has the default storage, whose variances are its values (boost_histogram), so clipping both is clipping the
    values once. nan is not among the numbers. *)
From Coq Require Import List Arith Bool String.
From Verif Require Import PyList PyDict Num Names_Model Writer_Model Card_Model Merge_Model.
Import ListNotations.
Local Open Scope string_scope.
Local Open Scope list_scope.

Section Clip.
  Context {V : Type} {NV : Num V}.
  Variable rn : renames.
  Variable parse : string -> option V.

  (** np.clip(x, thresh, np.inf) *)
  Definition nclip (t v : V) : V := if nlt v t then t else v.
  (** merge_inputs.py:13-18, 152-157 *)
  Definition clipped (t : option V) (vs : list V) : list V := match t with None => vs | Some t => map (nclip t) vs end.

  (** merge_inputs.py:117-123 *)
  Fixpoint clip_pairs (args : list string) (d : dict V) : result (dict V) :=
    match args with
    | n :: x :: rest => match parse x with None => Raise ValueError | Some t => clip_pairs rest (dset n t d) end
    | _ => Ok d
    end.
  Definition clip_dict (args : list string) : result (dict V) :=
    if Nat.eqb (Nat.modulo (List.length args) 2) 0 then clip_pairs args [] else Raise ValueError.

  Section Input.
    Variable t : option V.
    Variable w : workspace V.
    Variables (norm : nat -> nat -> V) (logk : nat -> nat -> nat -> V).
    (** merge_inputs.py:188-229 *)
    Definition clip_syst_calls (c' : string) (s n : nat) (ks : nat * string) : list (op V) :=
      let '(k, name) := ks in
      map (fun ip => AddSystematic
             (SPair (HDense (clipped t (rows (fun b => up_at w norm logk b (fst ip) k) s n)) [])
                    (HDense (clipped t (rows (fun b => down_at w norm logk b (fst ip) k) s n)) []))
             (renamed (rn_systs rn) name) (renamed (rn_procs rn) (snd ip)) c' n1 true NoSym false
             (mkKw (smem name (nois w)) (negb (smem name (w_noconstraint w))) (Some (groups_per_syst rn w k))))
        (active_procs w logk s n k).
    (** merge_inputs.py:167-173 *)
    Definition clip_proc_call (c' : string) (s n : nat) (ip : nat * string) : op V :=
      AddProcess (HDense (clipped t (rows (fun b => norm b (fst ip)) s n)) (clipped t (rows (fun b => w_sumw2 w b (fst ip)) s n)))
        (cut rn w (snd ip)) c' (smem (snd ip) (w_signals w)) None.
    (** merge_inputs.py:141-229; the data are not clipped *)
    Definition clip_channel_calls (x : string * (chinfo * (nat * nat))) : trace (V := V) :=
      let '(c, (info, (s, n))) := x in
      let c' := renamed (rn_chans rn) c in
      match w_procs w with
      | [] => fails IndexError
      | _ =>
        andthen (emit (AddChannel (Some c') (ch_axes info) false false :: map (clip_proc_call c' s n) (enumerate (w_procs w))))
          (if ch_masked info then fails KeyError
           else emit (AddData c' (rows (w_data_obs w) s n) (rows (w_data_var w) s n)
                      :: flat_map (clip_syst_calls c' s n) (enumerate (w_systs w))))
      end.
  End Input.
  Definition clip_input_calls (d : dict V) (x : string * workspace V) : trace (V := V) :=
    match w_tensors (snd x) with
    | TSparse _ => fails NotImplementedError
    | TDense norm logk => each (clip_channel_calls (dget (fst x) d) (snd x) norm logk) (debug_ranges 0 (w_channels (snd x)))
    end.
  (** the input files by the names of the command line *)
  Definition clip_merge (ty : systype) (args : list string) (ins : list (string * workspace V)) : result (workspace V) :=
    d <- clip_dict args ;;
    let tr := each (clip_input_calls d) ins in
    st <- run (merge_cfg ty) init_state (fst tr) ;;
    match snd tr with Some e => Raise e | None => write (merge_cfg ty) st end.
End Clip.
