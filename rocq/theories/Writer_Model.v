(** Model of rabbit/tensorwriter.py (TensorWriter): declarations and [write].
    Simplifications:
    - a histogram is its flat content in the layout of the channel (flow bins included iff the
      channel keeps them); [_check_hist_and_channel] is the comparison of its size with the
      channel's (edges are not compared);
    - scipy sparse / SparseHist inputs are lists of (flat index, value) sorted by index;
    - python sets are lists without repetition, in insertion order; where the code iterates
      over a set the theorems quantify over all enumerations (Names area);
    - not modelled here: add_to_data_covariance / data covariance, add_beta_variations,
      external terms, auxiliary bundles, clipSystVariations (always off in the code).
    An operation returns the state it leaves behind and the exception raised, if any. *)
From Coq Require Import List Arith Bool String Decimal DecimalString Lia.
From Verif Require Import PyList PyDict Order Num Names_Model.
Import ListNotations.
Local Open Scope string_scope.
Local Open Scope list_scope.

Inductive systype := LogNormal | Normal.
Inductive symmode := Conservative | Average | Linear | Quadratic | NoSym.

(** tensorwriter.py:17-92 constructor arguments *)
Record config := mkCfg { c_sparse : bool; c_type : systype; c_allowneg : bool }.

(** channel dictionary entry, tensorwriter.py:269: axes as (size, extent) pairs *)
Record chinfo := mkCh { ch_axes : list (nat * nat); ch_masked : bool; ch_flow : bool }.
(** tensorwriter.py:262 and inputdata.py:176-181 *)
Definition axes_size (axes : list (nat * nat)) (flow : bool) : nat :=
  prodn (map (fun a => if flow then snd a else fst a) axes).

Definition nat_str (n : nat) : string := NilZero.string_of_uint (Nat.to_uint n).

(** keyword arguments forwarded to book_systematic, tensorwriter.py:1604-1611 *)
Record kwargs := mkKw { kw_noi : bool; kw_constrained : bool; kw_groups : option (list string) }.

Section Writer.
  Context {V : Type} {NV : Num V}.

  Inductive histo :=
  | HDense (vals vars : list V)                 (* hist or array: values, variances *)
  | HSparse (ents : list (nat * V)) (size : nat).

  Inductive normarr :=
  | NDense (l : list V)
  | NSparse (ents : list (nat * V)) (size : nat).   (* flat CSR *)
  Inductive lentry :=
  | LDense (l : list V)
  | LSparse (ents : list (nat * V)).                (* indices and values dictionaries *)

  Record state := mkSt {
    st_signals : list string; st_bkgs : list string;
    st_channels : dict chinfo; st_nbinschan : dict nat;
    st_pseudonames : list string;
    st_systgroups : dict (list string);
    st_standard : list string; st_noi : list string; st_noconstraint : list string;
    st_data_obs : string -> option (list V); st_data_var : string -> option (list V);
    st_pseudodata : string -> string -> option (list V);
    st_norm : string -> string -> option normarr;
    st_sumw2 : string -> string -> option (list V);
    st_logkavg : string -> string -> dict lentry;
    st_logkhalf : string -> string -> dict lentry;
    st_symmetric : bool }.

  (** tensorwriter.py:29-91 *)
  Definition init_state : state :=
    mkSt [] [] [] [] [] [] [] [] [] (fun _ => None) (fun _ => None) (fun _ _ => None)
      (fun _ _ => None) (fun _ _ => None) (fun _ _ => []) (fun _ _ => []) true.

  Definition upd1 {B} (f : string -> B) (c : string) (b : B) : string -> B :=
    fun c' => if String.eqb c c' then b else f c'.
  Definition upd2 {B} (f : string -> string -> B) (c p : string) (b : B) : string -> string -> B :=
    fun c' p' => if String.eqb c c' then (if String.eqb p p' then b else f c' p') else f c' p'.

  Definition set_names (st : state) (s b : list string) :=
    mkSt s b (st_channels st) (st_nbinschan st) (st_pseudonames st) (st_systgroups st)
      (st_standard st) (st_noi st) (st_noconstraint st) (st_data_obs st) (st_data_var st)
      (st_pseudodata st) (st_norm st) (st_sumw2 st) (st_logkavg st) (st_logkhalf st) (st_symmetric st).
  Definition set_channels (st : state) c n nm s2 ka kh :=
    mkSt (st_signals st) (st_bkgs st) c n (st_pseudonames st) (st_systgroups st)
      (st_standard st) (st_noi st) (st_noconstraint st) (st_data_obs st) (st_data_var st)
      (st_pseudodata st) nm s2 ka kh (st_symmetric st).
  Definition set_data (st : state) o v :=
    mkSt (st_signals st) (st_bkgs st) (st_channels st) (st_nbinschan st) (st_pseudonames st)
      (st_systgroups st) (st_standard st) (st_noi st) (st_noconstraint st) o v
      (st_pseudodata st) (st_norm st) (st_sumw2 st) (st_logkavg st) (st_logkhalf st) (st_symmetric st).
  Definition set_pseudo (st : state) n p :=
    mkSt (st_signals st) (st_bkgs st) (st_channels st) (st_nbinschan st) n
      (st_systgroups st) (st_standard st) (st_noi st) (st_noconstraint st) (st_data_obs st)
      (st_data_var st) p (st_norm st) (st_sumw2 st) (st_logkavg st) (st_logkhalf st) (st_symmetric st).
  Definition set_norm (st : state) nm s2 :=
    set_channels st (st_channels st) (st_nbinschan st) nm s2 (st_logkavg st) (st_logkhalf st).
  Definition set_logk (st : state) ka kh sym :=
    mkSt (st_signals st) (st_bkgs st) (st_channels st) (st_nbinschan st) (st_pseudonames st)
      (st_systgroups st) (st_standard st) (st_noi st) (st_noconstraint st) (st_data_obs st)
      (st_data_var st) (st_pseudodata st) (st_norm st) (st_sumw2 st) ka kh sym.
  Definition set_systs (st : state) g s n u :=
    mkSt (st_signals st) (st_bkgs st) (st_channels st) (st_nbinschan st) (st_pseudonames st)
      g s n u (st_data_obs st)
      (st_data_var st) (st_pseudodata st) (st_norm st) (st_sumw2 st) (st_logkavg st)
      (st_logkhalf st) (st_symmetric st).

  Definition outcome := (state * option pyexc)%type.

  (** tensorwriter.py:254-283 add_channel *)
  Definition add_channel (st : state) (name : option string) (axes : list (nat * nat))
    (masked flow : bool) : outcome :=
    if flow && negb masked then (st, Some NotImplementedError)
    else
      let name := match name with
                  | Some n => n
                  | None => ("ch" ++ nat_str (List.length (st_channels st)))%string end in
      let info := mkCh axes masked flow in
      let chans :=
        if masked then dset name info (st_channels st)
        else
          dmerge (dset name info (filter (fun kv => negb (ch_masked (snd kv))) (st_channels st)))
                 (filter (fun kv => ch_masked (snd kv)) (st_channels st)) in
      (set_channels st chans (dset name (axes_size axes flow) (st_nbinschan st))
         (upd1 (st_norm st) name (fun _ => None)) (upd1 (st_sumw2 st) name (fun _ => None))
         (upd1 (st_logkavg st) name (fun _ => [])) (upd1 (st_logkhalf st) name (fun _ => [])), None).

  Definition hsize (h : histo) : nat :=
    match h with HDense v _ => List.length v | HSparse _ n => n end.

  (** tensorwriter.py:285-313 _check_hist_and_channel *)
  Definition check_hist (st : state) (h : histo) (ch : string) : option pyexc :=
    match dget ch (st_channels st) with
    | None => Some RuntimeError
    | Some info =>
        if Nat.eqb (hsize h) (axes_size (ch_axes info) (ch_flow info)) then None
        else Some RuntimeError
    end.

  Fixpoint assoc (i : nat) (ents : list (nat * V)) : option V :=
    match ents with
    | [] => None
    | (j, v) :: t => if Nat.eqb i j then Some v else assoc i t
    end.
  Definition at_or0 (i : nat) (ents : list (nat * V)) : V :=
    match assoc i ents with Some v => v | None => n0 end.
  (** h.toarray().flatten() *)
  Definition to_dense (ents : list (nat * V)) (size : nat) : list V :=
    map (fun i => at_or0 i ents) (seq 0 size).
  (** tensorwriter.py:143-152 get_flat_values *)
  Definition flat_values (h : histo) : list V :=
    match h with HDense v _ => v | HSparse e n => to_dense e n end.

  Definition neg (v : V) : bool := nlt v n0.
  Definition clip0 (v : V) : V := if neg v then n0 else v.    (* np.maximum(v, 0.0) *)
  Definition nonzero (e : nat * V) : bool := negb (neq0 (snd e)).

  (** tensorwriter.py:154-168 get_flat_variances *)
  Definition flat_variances (l : list V) : result (list V) :=
    if existsb neg l then Raise ValueError else Ok l.

  (** tensorwriter.py:217-236: the nominal array that is stored *)
  Definition store_norm (cfg : config) (h : histo) : result normarr :=
    match h with
    | HSparse e n =>
        if c_sparse cfg then
          if negb (forallb (fun x => nfinite (snd x)) e) then Raise RuntimeError
          else if negb (c_allowneg cfg) && existsb (fun x => neg (snd x)) e
               then Ok (NSparse (filter nonzero (map (fun x => (fst x, clip0 (snd x))) e)) n)
               else Ok (NSparse e n)
        else
          let v := to_dense e n in
          let v := if c_allowneg cfg then v else map clip0 v in
          if forallb nfinite v then Ok (NDense v) else Raise RuntimeError
    | HDense v _ =>
        let v := if c_allowneg cfg then v else map clip0 v in
        if forallb nfinite v then Ok (NDense v) else Raise RuntimeError
    end.
  (** tensorwriter.py:238-249: the stored variances *)
  Definition store_sumw2 (h : histo) (vars : option (list V)) : result (list V) :=
    v <- match vars, h with
         | Some l, _ => flat_variances l
         | None, HSparse e n => Ok (to_dense e n)
         | None, HDense _ w => flat_variances w
         end ;;
    if forallb nfinite v then Ok v else Raise RuntimeError.

  (** tensorwriter.py:195-252 add_process *)
  Definition add_process (cfg : config) (st : state) (h : histo) (name ch : string) (signal : bool)
    (vars : option (list V)) : outcome :=
    match check_hist st h ch with
    | Some e => (st, Some e)
    | None =>
      match st_norm st ch name with
      | Some _ => (st, Some RuntimeError)
      | None =>
        let st1 := if signal then set_names st (set_add name (st_signals st)) (st_bkgs st)
                   else set_names st (st_signals st) (set_add name (st_bkgs st)) in
        let st2 := set_logk st1 (upd2 (st_logkavg st1) ch name []) (upd2 (st_logkhalf st1) ch name [])
                     (st_symmetric st1) in
        match store_norm cfg h with
        | Raise e => (st2, Some e)
        | Ok nm =>
          match store_sumw2 h vars with
          | Raise e => (st2, Some e)
          | Ok w => (set_norm st2 (upd2 (st_norm st2) ch name (Some nm))
                       (upd2 (st_sumw2 st2) ch name (Some w)), None)
          end
        end
      end
    end.

  (** tensorwriter.py:170-177 add_data *)
  Definition add_data (st : state) (ch : string) (vals vars : list V) : outcome :=
    match check_hist st (HDense vals vars) ch with
    | Some e => (st, Some e)
    | None =>
      match st_data_obs st ch with
      | Some _ => (st, Some RuntimeError)
      | None =>
        let st1 := set_data st (upd1 (st_data_obs st) ch (Some vals)) (st_data_var st) in
        match flat_variances vars with
        | Raise e => (st1, Some e)
        | Ok w => (set_data st1 (st_data_obs st1) (upd1 (st_data_var st1) ch (Some w)), None)
        end
      end
    end.

  (** tensorwriter.py:182-193 add_pseudodata *)
  Definition add_pseudodata (st : state) (name : option string) (ch : string) (vals : list V) : outcome :=
    match check_hist st (HDense vals vals) ch with
    | Some e => (st, Some e)
    | None =>
      let name := match name with
                  | Some n => n
                  | None => ("pseudodata_" ++ nat_str (List.length (st_pseudonames st)))%string end in
      let st1 := set_pseudo st (set_add name (st_pseudonames st)) (st_pseudodata st) in
      match st_pseudodata st ch name with
      | Some _ => (st1, Some RuntimeError)
      | None => (set_pseudo st1 (st_pseudonames st1) (upd2 (st_pseudodata st1) ch name (Some vals)), None)
      end
    end.

  (** one bin of get_logk / _get_logk_sparse, tensorwriter.py:1504-1559 *)
  Definition logk1 (t : systype) (kf syst norm : V) : V :=
    match t with
    | LogNormal => if nlt n0 (nmul norm syst) then nmul kf (nln (ndiv syst norm)) else nlogeps
    | Normal => nmul kf (nsub syst norm)
    end.
  Definition map2 {A B C} (f : A -> B -> C) (l : list A) (m : list B) : list C :=
    map (fun ab => f (fst ab) (snd ab)) (combine l m).
  Definition get_logk (t : systype) (kf : V) (syst norm : list V) : result (list V) :=
    if forallb nfinite syst then Ok (map2 (logk1 t kf) syst norm) else Raise RuntimeError.

  (** the values the variation is computed from: the full nominal, or its stored entries *)
  Definition norm_vals (nm : normarr) : list V :=
    match nm with NDense l => l | NSparse e _ => map snd e end.

  (** np.searchsorted(side="left") on a sorted array: number of smaller entries *)
  Definition searchsorted (l : list nat) (x : nat) : nat :=
    List.length (filter (fun y => Nat.ltb y x) l).

  (** tensorwriter.py:1473-1485 _sparse_values_at: sparse_csr.indices[positions] is evaluated
      for all positions, so an index beyond the last stored one is an IndexError *)
  Definition sparse_values_at (ents : list (nat * V)) (idx : list nat) : result (list V) :=
    let ind := map fst ents in
    if forallb (fun i => Nat.ltb (searchsorted ind i) (List.length ind)) idx
    then Ok (map (fun i =>
           let pos := searchsorted ind i in
           if Nat.eqb (nth pos ind 0) i then nth pos (map snd ents) n0 else n0) idx)
    else Raise IndexError.

  (** tensorwriter.py:1487-1502 _get_syst_at_norm_nnz; dense norm 1217-1244 *)
  Definition syst_vals (nm : normarr) (h : histo) : result (list V) :=
    match nm with
    | NDense _ => Ok (flat_values h)
    | NSparse e _ =>
        match h with
        | HDense v _ => Ok (map (fun i => nth i v n0) (map fst e))
        | HSparse s _ => sparse_values_at s (map fst e)
        end
    end.

  (** tensorwriter.py:1575-1602 book_logk *)
  Definition mk_lentry (cfg : config) (nm : normarr) (vals : list V) : lentry :=
    match nm with
    | NSparse e _ => LSparse (filter nonzero (combine (map fst e) vals))
    | NDense l =>
        let z := map2 (fun n k => if neq0 n then n0 else k) l vals in
        if c_sparse cfg then LSparse (filter nonzero (combine (seq 0 (List.length z)) z))
        else LDense z
    end.
  Definition book_avg (cfg : config) (st : state) (nm : normarr) (vals : list V) (ch p s : string) : state :=
    set_logk st (upd2 (st_logkavg st) ch p (dset s (mk_lentry cfg nm vals) (st_logkavg st ch p)))
      (st_logkhalf st) (st_symmetric st).
  Definition book_half (cfg : config) (st : state) (nm : normarr) (vals : list V) (ch p s : string) : state :=
    set_logk st (st_logkavg st)
      (upd2 (st_logkhalf st) ch p (dset s (mk_lentry cfg nm vals) (st_logkhalf st ch p)))
      (st_symmetric st).

  (** tensorwriter.py:1604-1633 book_systematic (without data covariance) *)
  Definition book_systematic (st : state) (name : string) (kw : kwargs) : state :=
    let std := if kw_constrained kw then set_add name (st_standard st) else st_standard st in
    let unc := if kw_constrained kw then st_noconstraint st else set_add name (st_noconstraint st) in
    let noi := if kw_noi kw then set_add name (st_noi st) else st_noi st in
    let groups := match kw_groups kw with None => [name] | Some g => g end in
    let gd := fold_left (fun d g =>
                dset g (set_add name (match dget g d with Some m => m | None => [] end)) d)
              groups (st_systgroups st) in
    set_systs st gd std noi unc.

  (** tensorwriter.py:315-387 _compute_asym_syst: what is booked besides the returned average *)
  Definition asym_avg (m : symmode) (up dn : V) : V :=
    match m with
    | Conservative => if nlt (nabs dn) (nabs up) then up else dn
    | _ => nmul nhalf (nadd up dn)
    end.
  Definition asym_diff (m : symmode) (up dn : V) : V :=
    match m with
    | Quadratic => nmul (nmul nhalf nsqrt3) (nsub up dn)
    | _ => nmul (nmul nhalf n1) (nsub up dn)
    end.
  Definition compute_asym_syst (cfg : config) (st : state) (nm : normarr) (up dn : list V)
    (name p ch : string) (m : symmode) (kw : kwargs) : state * (list V * string) :=
    let avg := map2 (asym_avg m) up dn in
    match m with
    | Conservative | Average => (st, (avg, name))
    | Linear | Quadratic =>
        let dname := (name ++ "SymDiff")%string in
        let st1 := book_avg cfg st nm (map2 (asym_diff m) up dn) ch p dname in
        (book_systematic st1 dname kw, (avg, (name ++ "SymAvg")%string))
    | NoSym =>
        let st1 := set_logk st (st_logkavg st) (st_logkhalf st) false in
        (book_half cfg st1 nm (map2 (fun u d => nmul nhalf (nsub u d)) up dn) ch p name, (avg, name))
    end.

  Inductive systinput := SSingle (h : histo) | SPair (up dn : histo).

  Definition shift (asdiff : bool) (norm v : list V) : list V :=
    if asdiff then map2 nadd norm v else v.

  (** tensorwriter.py:1118-1262 add_systematic without extra axes and 496-572
      _add_systematic_sparse *)
  Definition add_systematic (cfg : config) (st : state) (h : systinput) (name p ch : string)
    (kf : V) (mirror : bool) (m : symmode) (asdiff : bool) (kw : kwargs) : outcome :=
    match st_norm st ch p with
    | None => (st, Some KeyError)
    | Some nm =>
      let nv := norm_vals nm in
      let t := c_type cfg in
      match h with
      | SPair hu hd =>
        match check_hist st hu ch, check_hist st hd ch with
        | Some e, _ | None, Some e => (st, Some e)
        | None, None =>
          match (u <- syst_vals nm hu ;; d <- syst_vals nm hd ;;
                 ku <- get_logk t kf (shift asdiff nv u) nv ;;
                 kd <- get_logk t kf (shift asdiff nv d) nv ;; Ok (ku, map nopp kd)) with
          | Raise e => (st, Some e)
          | Ok (ku, kd) =>
            let (st1, r) := compute_asym_syst cfg st nm ku kd name p ch m kw in
            (book_systematic (book_avg cfg st1 nm (fst r) ch p (snd r)) (snd r) kw, None)
          end
        end
      | SSingle h1 =>
        if mirror then
          match check_hist st h1 ch with
          | Some e => (st, Some e)
          | None =>
            match (s <- syst_vals nm h1 ;; get_logk t kf (shift asdiff nv s) nv) with
            | Raise e => (st, Some e)
            | Ok k => (book_systematic (book_avg cfg st nm k ch p name) name kw, None)
            end
          end
        else (st, Some RuntimeError)
      end
    end.

  (** one uncertainty value of add_norm_systematic: a number or an up/down pair (a list of any
      other length is an error) *)
  Inductive uncval := UScalar (u : V) | UPair (up dn : V) | UBad.

  (** loop of tensorwriter.py:416-487 over zip(process, uncertainty); [procs] is the list
      argument of the enclosing call: the asymmetric modes that book inside
      _compute_asym_syst pass that list as dictionary key, a TypeError *)
  Fixpoint norm_loop (cfg : config) (st : state) (name ch : string) (m : symmode) (kw : kwargs)
    (pus : list (string * uncval)) (vname : string) : state * result string :=
    match pus with
    | [] => (st, Ok vname)
    | (p, u) :: rest =>
      match st_norm st ch p with
      | None => (st, Raise KeyError)
      | Some nm =>
        let nv := norm_vals nm in
        let t := c_type cfg in
        match u with
        | UBad => (st, Raise RuntimeError)
        | UScalar x =>
          match get_logk t n1 (map (fun v => nmul v x) nv) nv with
          | Raise e => (st, Raise e)
          | Ok k => norm_loop cfg (book_avg cfg st nm k ch p vname) name ch m kw rest vname
          end
        | UPair x y =>
          match (ku <- get_logk t n1 (map (fun v => nmul v x) nv) nv ;;
                 kd <- get_logk t n1 (map (fun v => nmul v y) nv) nv ;; Ok (ku, map nopp kd)) with
          | Raise e => (st, Raise e)
          | Ok (ku, kd) =>
            match m with
            | Conservative | Average =>
              norm_loop cfg (book_avg cfg st nm (map2 (asym_avg m) ku kd) ch p name) name ch m kw rest name
            | Linear | Quadratic => (st, Raise TypeError)
            | NoSym => (set_logk st (st_logkavg st) (st_logkhalf st) false, Raise TypeError)
            end
          end
        end
      end
    end.

  (** tensorwriter.py:389-494 add_norm_systematic; scalars are wrapped into one-element lists *)
  Definition add_norm_systematic (cfg : config) (st : state) (name : string) (procs : list string)
    (ch : string) (unc : list uncval) (m : symmode) (kw : kwargs) : outcome :=
    if negb (Nat.eqb (List.length unc) 1) && negb (Nat.eqb (List.length procs) (List.length unc))
    then (st, Some RuntimeError)
    else
      match norm_loop cfg st name ch m kw (combine procs unc) name with
      | (st1, Raise e) => (st1, Some e)
      | (st1, Ok vname) => (book_systematic st1 vname kw, None)
      end.

  (** *** histories of declarations *)
  Inductive op :=
  | AddChannel (name : option string) (axes : list (nat * nat)) (masked flow : bool)
  | AddProcess (h : histo) (name ch : string) (signal : bool) (vars : option (list V))
  | AddData (ch : string) (vals vars : list V)
  | AddPseudodata (name : option string) (ch : string) (vals : list V)
  | AddSystematic (h : systinput) (name p ch : string) (kf : V) (mirror : bool) (m : symmode)
      (asdiff : bool) (kw : kwargs)
  | AddNormSystematic (name : string) (procs : list string) (ch : string) (unc : list uncval)
      (m : symmode) (kw : kwargs).

  Definition step (cfg : config) (st : state) (o : op) : outcome :=
    match o with
    | AddChannel n a mk fl => add_channel st n a mk fl
    | AddProcess h n ch s v => add_process cfg st h n ch s v
    | AddData ch v w => add_data st ch v w
    | AddPseudodata n ch v => add_pseudodata st n ch v
    | AddSystematic h n p ch kf mi m ad kw => add_systematic cfg st h n p ch kf mi m ad kw
    | AddNormSystematic n ps ch u m kw => add_norm_systematic cfg st n ps ch u m kw
    end.
  (** a script that does not catch exceptions: stops at the first one *)
  Fixpoint run (cfg : config) (st : state) (ops : list op) : result state :=
    match ops with
    | [] => Ok st
    | o :: rest =>
      match step cfg st o with
      | (st1, None) => run cfg st1 rest
      | (_, Some e) => Raise e
      end
    end.

  (** *** write *)
  (** get_systs, tensorwriter.py:2258-2259 *)
  Definition get_systs (st : state) : list string :=
    natural_sort (st_noconstraint st) ++ natural_sort (st_standard st).
  (** get_constraintweights, tensorwriter.py:2261-2267 *)
  Definition get_constraintweights (st : state) : list V :=
    let systs := get_systs st in
    let idx0 := map (fun s => last_index s systs) (natural_sort (st_noconstraint st)) in
    map (fun i => if existsb (fun o => match o with Some j => Nat.eqb i j | None => false end) idx0
                  then n0 else n1) (seq 0 (List.length systs)).
  Fixpoint mapM {A B} (f : A -> result B) (l : list A) : result (list B) :=
    match l with
    | [] => Ok []
    | x :: l' => y <- f x ;; ys <- mapM f l' ;; Ok (y :: ys)
    end.
  Definition idx_or_keyerror (systs : list string) (s : string) : result nat :=
    match last_index s systs with Some i => Ok i | None => Raise KeyError end.
  (** get_groups / get_systgroups, tensorwriter.py:2269-2291 *)
  Definition get_systgroups (st : state) : result (list (string * list nat)) :=
    let systs := get_systs st in
    mapM (fun gm => l <- mapM (idx_or_keyerror systs) (snd gm) ;; Ok (fst gm, l))
      (natural_sort_dict (st_systgroups st)).
  (** get_noiidxs, tensorwriter.py:2283-2287 *)
  Definition get_noiidxs (st : state) : result (list nat) :=
    mapM (idx_or_keyerror (get_systs st)) (natural_sort (st_noi st)).

  (** numpy arrays under construction are index functions; [a[i:i+n, j] = vals] *)
  Definition arr2 := nat -> nat -> V.
  Definition arr3 := nat -> nat -> nat -> V.
  Definition zeros2 : arr2 := fun _ _ => n0.
  Definition zeros3 : arr3 := fun _ _ _ => n0.
  Definition in_block (i n b : nat) : bool := Nat.leb i b && Nat.ltb b (i + n).
  Definition block2 (i n j : nat) (vals : list V) (a : arr2) : arr2 :=
    fun b p => if in_block i n b && Nat.eqb p j then nth (b - i) vals n0 else a b p.
  Definition block3 (i n j k : nat) (vals : list V) (a : arr3) : arr3 :=
    fun b p s => if in_block i n b && Nat.eqb p j && Nat.eqb s k then nth (b - i) vals n0 else a b p s.
  (** [a[i + idx, j] = vals] *)
  Definition scatter2 (i j : nat) (ents : list (nat * V)) (a : arr2) : arr2 :=
    fold_left (fun a e => fun b p => if Nat.eqb b (i + fst e) && Nat.eqb p j then snd e else a b p) ents a.

  (** channels with their first bin, in the order of the channels dictionary
      (tensorwriter.py:1657-1683: ibin accumulates nbinschan) *)
  Fixpoint offsets (nb : dict nat) (ib : nat) (chs : list string) : list (string * (nat * nat)) :=
    match chs with
    | [] => []
    | c :: rest => let n := match dget c nb with Some n => n | None => 0 end in
                   (c, (ib, n)) :: offsets nb (ib + n) rest
    end.
  Definition chan_offsets (st : state) := offsets (st_nbinschan st) 0 (dkeys (st_channels st)).

  Definition enumerate {A} (l : list A) : list (nat * A) := combine (seq 0 (List.length l)) l.
  (** all (channel, first bin, number of bins, process index, process, nominal) in loop order,
      skipping processes absent from the channel *)
  Definition cells (st : state) (procs : list string)
    : list (string * nat * nat * nat * string * normarr) :=
    flat_map (fun co => let '(c, (ib, n)) := co in
      flat_map (fun ip => match st_norm st c (snd ip) with
                          | Some nm => [(c, ib, n, fst ip, snd ip, nm)]
                          | None => [] end) (enumerate procs)) (chan_offsets st).

  (** tensorwriter.py:1653-1671 sumw and sumw2 *)
  Definition fill_sumw (st : state) (procs : list string) : arr2 :=
    fold_left (fun a x => let '(c, ib, n, ip, p, nm) := x in
      match nm with
      | NDense l => block2 ib n ip l a
      | NSparse e _ => scatter2 ib ip e a
      end) (cells st procs) zeros2.
  Definition fill_sumw2 (st : state) (procs : list string) : arr2 :=
    fold_left (fun a x => let '(c, ib, n, ip, p, nm) := x in
      match st_sumw2 st c p with Some w => block2 ib n ip w a | None => a end)
      (cells st procs) zeros2.

  (** tensorwriter.py:1673-1680 data and pseudodata of the unmasked channels *)
  Definition unmasked_offsets (st : state) : list (string * (nat * nat)) :=
    filter (fun co => match dget (fst co) (st_channels st) with
                      | Some i => negb (ch_masked i) | None => false end) (chan_offsets st).
  Definition fill_data (st : state) (d : string -> option (list V)) : result (nat -> V) :=
    fold_left (fun r co => a <- r ;;
      let '(c, (ib, n)) := co in
      match d c with
      | Some l => Ok (fun b => if in_block ib n b then nth (b - ib) l n0 else a b)
      | None => Raise KeyError
      end) (unmasked_offsets st) (Ok (fun _ => n0)).
  Definition fill_pseudo (st : state) : result arr2 :=
    fold_left (fun r co => a <- r ;;
      let '(c, (ib, n)) := co in
      fold_left (fun r2 in_ => a2 <- r2 ;;
        match st_pseudodata st c (snd in_) with
        | Some l => Ok (block2 ib n (fst in_) l a2)
        | None => Raise KeyError
        end) (enumerate (st_pseudonames st)) (Ok a)) (unmasked_offsets st) (Ok zeros2).

  (** dense tensors, tensorwriter.py:1921-1963. The logk axes [2, nsyst] are flattened:
      [0, i] -> i and [1, i] -> nsyst + i, as the reader's reshape does *)
  Definition dense_of (e : lentry) : list V := match e with LDense l => l | LSparse _ => [] end.
  Definition dense_norm_of (nm : normarr) : list V := match nm with NDense l => l | NSparse _ _ => [] end.
  Definition fill_norm (st : state) (procs : list string) : arr2 :=
    fold_left (fun a x => let '(c, ib, n, ip, p, nm) := x in block2 ib n ip (dense_norm_of nm) a)
      (cells st procs) zeros2.
  Definition fill_logk_cell (st : state) (systs : list string)
    (a : arr3) (x : string * nat * nat * nat * string * normarr) : arr3 :=
    let '(c, ib, n, ip, p, nm) := x in
    fold_left (fun a is_ =>
      match dget (snd is_) (st_logkavg st c p) with
      | None => a
      | Some e =>
        let a1 := block3 ib n ip (fst is_) (dense_of e) a in
        if st_symmetric st then a1
        else match dget (snd is_) (st_logkhalf st c p) with
             | Some h => block3 ib n ip (List.length systs + fst is_) (dense_of h) a1
             | None => a1
             end
      end) (enumerate systs) a.
  Definition fill_logk (st : state) (procs systs : list string) : arr3 :=
    fold_left (fill_logk_cell st systs) (cells st procs) zeros3.

  (** sparse tensors, tensorwriter.py:1688-1919 *)
  Definition coo_entries (nm : normarr) : list (nat * V) :=
    match nm with
    | NSparse e _ => e
    | NDense l => filter nonzero (combine (seq 0 (List.length l)) l)
    end.
  Definition sparse_of (e : lentry) : list (nat * V) := match e with LSparse l => l | LDense _ => [] end.
  (** position in norm_sparse of bin [i] of a process whose entries start at [old]:
      norm_idx_map (cumulative count of nonzero bins) or searchsorted on the CSR indices *)
  Definition norm_pos (nm : normarr) (old i : nat) : nat :=
    match nm with
    | NSparse e _ => searchsorted (map fst e) i + old
    | NDense l => List.length (filter (fun v => negb (neq0 v)) (firstn (i + 1) l)) - 1 + old
    end.
  Definition logk_of_cell (st : state) (systs : list string) (c p : string) (nm : normarr) (old : nat)
    : list (nat * nat * V) :=
    flat_map (fun is_ =>
      match dget (snd is_) (st_logkavg st c p) with
      | None => []
      | Some e =>
        map (fun iv => (norm_pos nm old (fst iv), fst is_, snd iv)) (sparse_of e)
        ++ match dget (snd is_) (st_logkhalf st c p) with
           | Some h => map (fun iv => (norm_pos nm old (fst iv), List.length systs + fst is_, snd iv)) (sparse_of h)
           | None => []
           end
      end) (enumerate systs).
  (** accumulated (norm entries, logk entries) over the cells in loop order *)
  Fixpoint assemble (st : state) (systs : list string) (cs : list (string * nat * nat * nat * string * normarr))
    (old : nat) : list (nat * nat * V) * list (nat * nat * V) :=
    match cs with
    | [] => ([], [])
    | (c, ib, n, ip, p, nm) :: rest =>
      let ents := coo_entries nm in
      let (ns, ks) := assemble st systs rest (old + List.length ents) in
      (map (fun iv => (ib + fst iv, ip, snd iv)) ents ++ ns,
       logk_of_cell st systs c p nm old ++ ks)
    end.
  (** pre-computed totals, tensorwriter.py:1699-1725 *)
  Definition lsize (e : lentry) : nat := List.length (sparse_of e).
  Definition logk_total (st : state) (cs : list (string * nat * nat * nat * string * normarr)) : nat :=
    sumn (map (fun x => let '(c, _, _, _, p, _) := x in
      sumn (map lsize (dvals (st_logkavg st c p))) + sumn (map lsize (dvals (st_logkhalf st c p)))) cs).

  (** np.argsort *)
  Definition argsort (ks : list nat) : list nat :=
    map snd (sort_k fst Nat.compare (combine ks (seq 0 (List.length ks)))).
  Definition gather {A} (d : A) (l : list A) (idx : list nat) : list A := map (fun i => nth i l d) idx.
  Definition dflt3 : nat * nat * V := (0, 0, n0).

  Record sparse_tensors := mkSp {
    sp_norm : list (nat * nat * V);      (* (bin, proc), value: canonical order *)
    sp_logk : list (nat * nat * V);      (* (position in sp_norm, column), value *)
    sp_ncol : nat }.

  Definition write_sparse (st : state) (procs systs : list string) : result sparse_tensors :=
    let cs := cells st procs in
    let (ns, ks) := assemble st systs cs 0 in
    if negb (Nat.eqb (List.length ks) (logk_total st cs)) then Raise AssertionError
    else
      let nproc := List.length procs in
      let order := argsort (map (fun e => fst (fst e) * nproc + snd (fst e)) ns) in
      let ns' := gather dflt3 ns order in
      let perm := argsort order in
      let ks1 := map (fun e => (nth (fst (fst e)) perm 0, snd (fst e), snd e)) ks in
      let ncol := if st_symmetric st then List.length systs else 2 * List.length systs in
      let korder := argsort (map (fun e => fst (fst e) * ncol + snd (fst e)) ks1) in
      Ok (mkSp ns' (gather dflt3 ks1 korder) ncol).

  Inductive tensors :=
  | TDense (norm : arr2) (logk : arr3)
  | TSparse (s : sparse_tensors).

  (** the file content *)
  Record workspace := mkWs {
    w_procs : list string; w_signals : list string; w_systs : list string;
    w_noconstraint : list string; w_groups : list (string * list nat); w_noiidxs : list nat;
    w_cw : list V; w_nbins : nat; w_nbinsfull : nat;
    w_data_obs : nat -> V; w_data_var : nat -> V;
    w_pseudonames : list string; w_pseudo : arr2;
    w_sumw : arr2; w_sumw2 : arr2; w_tensors : tensors;
    w_channels : dict chinfo; w_symmetric : bool; w_type : systype }.

  (** tensorwriter.py:1635-2036 write *)
  Definition write (cfg : config) (st : state) : result workspace :=
    if existsb (fun s => smem s (st_bkgs st)) (st_signals st) then Raise RuntimeError
    else
      let procs := sorted_str (st_signals st) ++ sorted_str (st_bkgs st) in
      let nbins := sumn (map (fun kv => match dget (fst kv) (st_channels st) with
                                        | Some i => if ch_masked i then 0 else snd kv
                                        | None => 0 end) (st_nbinschan st)) in
      let nbinsfull := sumn (dvals (st_nbinschan st)) in
      obs <- fill_data st (st_data_obs st) ;;
      var <- fill_data st (st_data_var st) ;;
      pseudo <- fill_pseudo st ;;
      let systs := get_systs st in
      tens <- (if c_sparse cfg
               then s <- write_sparse st procs systs ;; Ok (TSparse s)
               else Ok (TDense (fill_norm st procs) (fill_logk st procs systs))) ;;
      nois <- get_noiidxs st ;;
      groups <- get_systgroups st ;;
      Ok (mkWs procs (sorted_str (st_signals st)) systs (natural_sort (st_noconstraint st))
            groups nois (get_constraintweights st) nbins nbinsfull obs var
            (st_pseudonames st) pseudo (fill_sumw st procs) (fill_sumw2 st procs) tens
            (st_channels st) (st_symmetric st) (c_type cfg)).

  (** channel ranges derived by the reader, inputdata.py:174-190 *)
  Fixpoint reader_ranges (ib : nat) (d : dict chinfo) : list (string * (nat * nat)) :=
    match d with
    | [] => []
    | (c, i) :: rest =>
      let size := axes_size (ch_axes i) (ch_flow i) in
      (c, (ib, ib + size)) :: reader_ranges (ib + size) rest
    end.
End Writer.
Arguments state : clear implicits.
Arguments histo : clear implicits.
Arguments normarr : clear implicits.
Arguments lentry : clear implicits.
Arguments op : clear implicits.
Arguments systinput : clear implicits.
Arguments uncval : clear implicits.
Arguments workspace : clear implicits.
Arguments tensors : clear implicits.
Arguments sparse_tensors : clear implicits.
