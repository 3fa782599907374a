(** Model of bin/merge_inputs.py: read several workspaces back as histograms
    (rabbit/debugdata.py) and declare them again in one TensorWriter.
    Simplifications: the renaming module is four dictionaries; --clipTensors is in Clip_Model;
    a histogram is its flat content; external terms, beta variations, data covariances and
    auxiliary bundles are not part of [workspace] (the script does not read them). *)
From Coq Require Import List Arith Bool String.
From Verif Require Import PyList PyDict Num Names_Model Writer_Model Card_Model.
Import ListNotations.
Local Open Scope string_scope.
Local Open Scope list_scope.

(** merge_inputs.py:94-115 rename_systs, rename_groups, rename_processes, rename_channels *)
Record renames := mkRen { rn_systs : dict string; rn_groups : dict string; rn_procs : dict string; rn_chans : dict string }.
(** merge_inputs.py:26-30, 143-150, 203-207, 211-215 *)
Definition renamed (d : dict string) (n : string) : string := match dget n d with Some m => m | None => n end.

Section Merge.
  Context {V : Type} {NV : Num V}.
  Variable rn : renames.

  (** debugdata.py:23-27,122: first bin and number of bins of each channel; the shape is made of
      [len(a)], flow bins are never counted *)
  Fixpoint debug_ranges (ib : nat) (d : dict chinfo) : list (string * (chinfo * (nat * nat))) :=
    match d with
    | [] => []
    | (c, i) :: rest => let size := axes_size (ch_axes i) false in
                        (c, (i, (ib, size))) :: debug_ranges (ib + size) rest
    end.
  (** rows [s, s + n) of a column *)
  Definition rows {A} (a : nat -> A) (s n : nat) : list A := map (fun i => a (s + i)) (seq 0 n).

  (** debugdata.py:68-76 get_syst *)
  Definition get_syst (t : systype) (logk nominal : V) : V :=
    match t with LogNormal => nmul (nexp logk) nominal | Normal => nadd logk nominal end.
  Section Input.
    Variable w : workspace V.
    Variables (norm : nat -> nat -> V) (logk : nat -> nat -> nat -> V).
    Definition nsyst := List.length (w_systs w).
    (** debugdata.py:78-94; columns nsyst.. of the flattened logk are the half differences *)
    Definition up_at (b p k : nat) : V :=
      let x := if w_symmetric w then logk b p k else nadd (logk b p k) (logk b p (nsyst + k)) in
      get_syst (w_type w) x (norm b p).
    Definition down_at (b p k : nat) : V :=
      let x := if w_symmetric w then nopp (logk b p k) else nadd (nopp (logk b p k)) (logk b p (nsyst + k)) in
      get_syst (w_type w) x (norm b p).
    Definition nonzero_at (b p k : nat) : bool :=
      nlt n0 (nabs (logk b p k)) || (negb (w_symmetric w) && nlt n0 (nabs (logk b p (nsyst + k)))).
    (** debugdata.py:106-114: number of bins with an effect is not zero *)
    Definition active (s n p k : nat) : bool := existsb (fun i => nonzero_at (s + i) p k) (seq 0 n).
    (** debugdata.py:165-187 procsForNonzeroSysts for one channel and one systematic *)
    Definition active_procs (s n k : nat) : list (nat * string) :=
      filter (fun ip => active s n (fst ip) k) (enumerate (w_procs w)).

    (** merge_inputs.py:22-33 get_groups_per_syst *)
    Definition groups_per_syst (k : nat) : list string :=
      flat_map (fun g => map (fun _ => renamed (rn_groups rn) (fst g)) (filter (Nat.eqb k) (snd g))) (w_groups w).
    (** merge_inputs.py:177-179 *)
    Definition nois : list string := map (fun i => nth i (w_systs w) "") (w_noiidxs w).

    (** merge_inputs.py:188-229: one systematic in one channel *)
    Definition syst_calls (c' : string) (s n : nat) (ks : nat * string) : list (op V) :=
      let '(k, name) := ks in
      map (fun ip => AddSystematic
             (SPair (HDense (rows (fun b => up_at b (fst ip) k) s n) [])
                    (HDense (rows (fun b => down_at b (fst ip) k) s n) []))
             (renamed (rn_systs rn) name) (renamed (rn_procs rn) (snd ip)) c' n1 true NoSym false
             (mkKw (smem name nois) (negb (smem name (w_noconstraint w))) (Some (groups_per_syst k))))
        (active_procs s n k).
    (** merge_inputs.py:159-164: the renamed processes are a copy of the numpy array of the old names;
        such an array has as many characters per entry as the longest of them, and a longer string
        assigned to an entry is cut *)
    Definition width : nat := fold_right (fun p m => Nat.max (String.length p) m) 0 (w_procs w).
    Definition cut (p : string) : string := if smem p (dkeys (rn_procs rn)) then String.substring 0 width (renamed (rn_procs rn) p) else p.
    (** merge_inputs.py:167-173: all processes of the file, in every channel *)
    Definition proc_call (c' : string) (s n : nat) (ip : nat * string) : op V :=
      AddProcess (HDense (rows (fun b => norm b (fst ip)) s n) (rows (fun b => w_sumw2 w b (fst ip)) s n))
        (cut (snd ip)) c' (smem (snd ip) (w_signals w)) None.
    (** merge_inputs.py:141-229: one channel; data histograms exist for unmasked channels only
        (debugdata.py:116-117) *)
    Definition channel_calls (x : string * (chinfo * (nat * nat))) : trace (V := V) :=
      let '(c, (info, (s, n))) := x in
      let c' := renamed (rn_chans rn) c in
      match w_procs w with
      | [] => fails IndexError
      | _ =>
        andthen (emit (AddChannel (Some c') (ch_axes info) false false :: map (proc_call c' s n) (enumerate (w_procs w))))
          (if ch_masked info then fails KeyError
           else emit (AddData c' (rows (w_data_obs w) s n) (rows (w_data_var w) s n)
                      :: flat_map (syst_calls c' s n) (enumerate (w_systs w))))
      end.
  End Input.

  (** merge_inputs.py:129-229: one input tensor *)
  Definition input_calls (w : workspace V) : trace (V := V) :=
    match w_tensors w with
    | TSparse _ => fails NotImplementedError       (* debugdata.py:9-10 *)
    | TDense norm logk => each (channel_calls w norm logk) (debug_ranges 0 (w_channels w))
    end.
  Definition merge_calls (ws : list (workspace V)) : trace (V := V) := each input_calls ws.
  (** merge_inputs.py:125-127,231-236: TensorWriter(systematic_type=...) with its other defaults *)
  Definition merge_cfg (t : systype) : config := mkCfg false t false.
  Definition merge (t : systype) (ws : list (workspace V)) : result (workspace V) :=
    st <- run (merge_cfg t) init_state (fst (merge_calls ws)) ;;
    match snd (merge_calls ws) with Some e => Raise e | None => write (merge_cfg t) st end.
End Merge.
