(** Model of rabbit/datacard_parser.py (DatacardParser) and rabbit/datacard_converter.py
    (DatacardConverter.convert_to_hdf5): from the text of a combine datacard to the sequence of
    TensorWriter calls. The calls are the operations of Writer_Model, so that what ends up in the
    workspace is given by running them.
    Simplifications:
    - characters are ASCII, as in Parse_Model; [float(x)] is a parameter (text to number, None for
      a ValueError), [int(x)] is [py_int] of Parse_Model;
    - a line is the list of its blank-separated tokens: after [strip], [line.startswith(w)] for a
      word [w] without blanks is a test of the first token, and a line is empty iff it has no token;
    - ROOT files are a function from file and histogram name to a histogram, None when
      [get_histogram] finds none there or something that is not a TH1 (uproot and ROOT alike, so
      max_depth and the caches of opened files do not appear); paths are not resolved, a predicate
      says which shape files exist;
    - the counting histogram has Double storage: its variances are its values;
    - conversion yields the calls in order, and the exception that ends it, if any. *)
From Coq Require Import List Arith Bool String Ascii ZArith Lia.
From Verif Require Import PyList PyDict Num Names_Model Writer_Model.
From Verif Require Parse_Model.
Import ListNotations.
Local Open Scope string_scope.
Local Open Scope list_scope.

(** ** text to lines, datacard_parser.py:38-43 *)
Definition newline : ascii := "010"%char.
(** [line.split()] *)
Fixpoint words (s : Parse_Model.text) : list Parse_Model.text :=
  match s with
  | [] => []
  | c :: r =>
    if Parse_Model.is_space c then words r
    else let ws := words r in
         match r with
         | [] => [[c]]
         | c2 :: _ =>
           if Parse_Model.is_space c2 then [c] :: ws
           else match ws with w :: ws' => (c :: w) :: ws' | [] => [[c]] end
         end
  end.
Definition line := list string.
Definition read_line (s : Parse_Model.text) : line := map Parse_Model.S_ (words s).
Definition starts (w : string) (l : line) : bool := match l with t :: _ => String.prefix w t | [] => false end.
Definition read_card (content : string) : list line :=
  filter (fun l => match l with [] => false | _ => negb (starts "#" l) end)
    (map read_line (Parse_Model.splitc newline (Parse_Model.T content))).

(** dictionaries keyed by (bin, process) *)
Definition key := (string * string)%type.
Definition keqb (a b : key) : bool := String.eqb (fst a) (fst b) && String.eqb (snd a) (snd b).
Fixpoint kget {B} (k : key) (d : list (key * B)) : option B :=
  match d with [] => None | (k', v) :: d' => if keqb k k' then Some v else kget k d' end.
Fixpoint kset {B} (k : key) (v : B) (d : list (key * B)) : list (key * B) :=
  match d with
  | [] => [(k, v)]
  | (k', v') :: d' => if keqb k k' then (k', v) :: d' else (k', v') :: kset k v d'
  end.

(** shapes directive, datacard_parser.py:178-187 *)
Record shape := mkShape { sh_proc : string; sh_chan : string; sh_file : string; sh_pat : string;
                          sh_syst : option string }.
(** systematic, datacard_parser.py:226-246 *)
Record syst := mkSyst { sy_name : string; sy_type : string; sy_n : option Z; sy_effects : list (key * string) }.

Section Card.
  Context {V : Type} {NV : Num V}.
  Variable pyfloat : string -> option V.

  Definition tofloat (s : string) : result V := match pyfloat s with Some v => Ok v | None => Raise ValueError end.
  Definition toint (s : string) : result Z := Parse_Model.py_int (Parse_Model.T s).

  (** *** parser *)
  Record card := mkCard {
    cd_bins : list string; cd_obs : dict V; cd_procs : list string; cd_idx : dict Z;
    cd_map : dict (dict V); cd_rates : list (key * V); cd_shapes : list shape; cd_systs : list syst;
    cd_params : list line; cd_rateparams : list line; cd_groups : list line; cd_edits : list line }.

  (** datacard_parser.py:65-76 _parse_header: the three values, None for "*" or no such line *)
  Definition header_value (l : line) : result (option string) :=
    match l with
    | _ :: v :: _ => Ok (if String.eqb v "*" then None else Some v)
    | _ => Raise IndexError
    end.
  Fixpoint parse_header (h : option string * option string * option string) (lines : list line)
    : result (option string * option string * option string) :=
    match lines with
    | [] => Ok h
    | l :: r =>
      if starts "imax" l then v <- header_value l ;; parse_header (v, snd (fst h), snd h) r
      else if starts "jmax" l then v <- header_value l ;; parse_header (fst (fst h), v, snd h) r
      else if starts "kmax" l then v <- header_value l ;; parse_header (fst h, v) r
      else parse_header h r
    end.

  (** datacard_parser.py:103-109 _is_process_bin_line; [first]: index 0, [r]: the lines after *)
  Definition process_bin_line (first : bool) (r : list line) : bool :=
    negb first && Nat.leb 2 (List.length r) && match r with n :: _ => starts "process" n | [] => false end.
  (** datacard_parser.py:83-91 *)
  Fixpoint find_bin (first : bool) (lines : list line) : option line :=
    match lines with
    | [] => None
    | l :: r => if starts "bin" l && negb (process_bin_line first r) then Some l else find_bin false r
    end.
  Fixpoint set_obs (bins obs : list string) (d : dict V) : result (dict V) :=
    match bins, obs with
    | b :: bs, o :: os => v <- tofloat o ;; set_obs bs os (dset b v d)
    | _, _ => Ok d
    end.
  (** datacard_parser.py:78-101 _parse_observations *)
  Definition parse_observations (lines : list line) : result (list string * dict V) :=
    match find_bin true lines, find (starts "observation") lines with
    | Some b, Some o =>
      let bins := tl b in let obs := tl o in
      if Nat.eqb (List.length bins) (List.length obs)
      then d <- set_obs bins obs [] ;; Ok (bins, d)
      else Ok (bins, [])
    | _, _ => Ok ([], [])
    end.

  (** datacard_parser.py:118-130 *)
  Fixpoint find_block (lines : list line) : option (line * line * line * line) :=
    match lines with
    | [] => None
    | l1 :: r =>
      match r with
      | l2 :: l3 :: l4 :: _ =>
        if starts "bin" l1 && starts "process" l2 && starts "process" l3 && starts "rate" l4
        then Some (l1, l2, l3, l4) else find_block r
      | _ => None
      end
    end.
  (** list(dict.fromkeys(l)) *)
  Definition fromkeys (l : list string) : list string := fold_left (fun acc x => set_add x acc) l [].
  Fixpoint set_indices (names idx : list string) (d : dict Z) : result (dict Z) :=
    match names, idx with
    | n :: ns, i :: is => z <- toint i ;; set_indices ns is (dset n z d)
    | _, _ => Ok d
    end.
  (** datacard_parser.py:147-158; names and rates are indexed with the position of the bin *)
  Fixpoint set_rates (bins names rates : list string) (m : dict (dict V)) (d : list (key * V))
    : result (dict (dict V) * list (key * V)) :=
    match bins with
    | [] => Ok (m, d)
    | b :: bs =>
      match names, rates with
      | n :: ns, x :: xs =>
        v <- tofloat x ;;
        set_rates bs ns xs (dset b (dset n v (match dget b m with Some e => e | None => [] end)) m)
          (kset (b, n) v d)
      | _, _ => Raise IndexError
      end
    end.
  (** datacard_parser.py:111-158 _parse_processes_and_rates *)
  Definition parse_rates (lines : list line)
    : result (list string * dict Z * (dict (dict V) * list (key * V))) :=
    match find_block lines with
    | None => Ok ([], [], ([], []))
    | Some (l1, l2, l3, l4) =>
      idx <- set_indices (tl l2) (tl l3) [] ;;
      mr <- set_rates (tl l1) (tl l2) (tl l4) [] [] ;;
      Ok (fromkeys (tl l2), idx, mr)
    end.

  (** datacard_parser.py:160-187 _parse_shapes *)
  Variable exists_file : string -> bool.
  Definition shape_of (l : line) : option (result shape) :=
    match l with
    | k :: p :: c :: f :: pat :: more =>
      if String.prefix "shapes" k then
        Some (if exists_file f
              then Ok (mkShape p c f pat (match more with s :: _ => Some s | [] => None end))
              else Raise GenericException)
      else None
    | _ => None
    end.
  Fixpoint parse_shapes (lines : list line) : result (list shape) :=
    match lines with
    | [] => Ok []
    | l :: r =>
      match shape_of l with
      | None => parse_shapes r
      | Some s => x <- s ;; xs <- parse_shapes r ;; Ok (x :: xs)
      end
    end.

  Definition second (l : line) : string := nth 1 l "".
  Definition stop_words : list string := ["shapes"; "nuisance"; "param"; "rateParam"; "group"; "extArg"].
  Definition syst_words : list string := ["lnN"; "shape"; "gmN"; "lnU"; "shapeN"; "shape?"; "shapeU"].
  (** datacard_parser.py:236-244 *)
  Definition effects_of (keys : list key) (effects : list string) : list (key * string) :=
    if Nat.eqb (List.length effects) (List.length keys)
    then fold_left (fun d ke => if String.eqb (snd ke) "-" then d else kset (fst ke) (snd ke) d)
           (combine keys effects) []
    else [].
  (** datacard_parser.py:223-246 *)
  Definition syst_of (keys : list key) (l : line) : result syst :=
    match l with
    | n :: t :: rest =>
      match String.eqb t "gmN", rest with
      | true, e :: rest' => z <- toint e ;; Ok (mkSyst n t (Some z) (effects_of keys rest'))
      | _, _ => Ok (mkSyst n t None (effects_of keys rest))
      end
    | _ => Raise IndexError
    end.
  (** datacard_parser.py:202-246: the lines after the rate line *)
  Fixpoint systs_from (keys : list key) (lines : list line) : result (list syst) :=
    match lines with
    | [] => Ok []
    | l :: r =>
      if Nat.ltb (List.length l) 2 then systs_from keys r
      else if smem (second l) stop_words then Ok []
      else if smem (second l) syst_words
      then s <- syst_of keys l ;; ss <- systs_from keys r ;; Ok (s :: ss)
      else systs_from keys r
    end.
  (** datacard_parser.py:189-200 *)
  Fixpoint after_rate (lines : list line) : option (list line) :=
    match lines with [] => None | l :: r => if starts "rate" l then Some r else after_rate r end.
  Definition parse_systematics (keys : list key) (lines : list line) : result (list syst) :=
    match after_rate lines with None => Ok [] | Some r => systs_from keys r end.

  (** datacard_parser.py:248-262 _parse_additional_directives; a word cannot be "nuisance edit" *)
  Definition directives (w : string) (lines : list line) : list line :=
    flat_map (fun l => match l with
                       | a :: t :: rest => if String.eqb t w then [a :: rest] else []
                       | _ => []
                       end) lines.

  (** datacard_parser.py:33-63 parse_file *)
  Definition parse (lines : list line) : result card :=
    _ <- parse_header (None, None, None) lines ;;
    bo <- parse_observations lines ;;
    pr <- parse_rates lines ;;
    sh <- parse_shapes lines ;;
    sy <- parse_systematics (map fst (snd (snd pr))) lines ;;
    Ok (mkCard (fst bo) (snd bo) (fst (fst pr)) (snd (fst pr)) (fst (snd pr)) (snd (snd pr)) sh sy
          (directives "param" lines) (directives "rateParam" lines) (directives "group" lines)
          (directives "nuisance edit" lines)).

  (** *** converter *)
  (** str.replace *)
  Fixpoint replace (old new : string) (skip : nat) (s : string) : string :=
    match s with
    | EmptyString => EmptyString
    | String c r =>
      match skip with
      | S k => replace old new k r
      | O => if String.prefix old s then (new ++ replace old new (String.length old - 1) r)%string
             else String c (replace old new 0 r)
      end
    end.
  (** datacard_converter.py:150-166 *)
  Definition hist_name (mass : string) (s : shape) (p b : string) (sys : option string) : string :=
    match sys, sh_syst s with
    | Some y, Some pat =>
        replace "$MASS" mass 0 (replace "$SYSTEMATIC" y 0 (replace "$CHANNEL" b 0 (replace "$PROCESS" p 0 pat)))
    | _, _ =>
        let n := replace "$MASS" mass 0 (replace "$CHANNEL" b 0 (replace "$PROCESS" p 0 (sh_pat s))) in
        match sys with Some y => (n ++ "_" ++ y)%string | None => n end
    end.

  (** a TH1 as hist: (size, extent) of its axes, values and variances *)
  Record thist := mkTH { th_axes : list (nat * nat); th_vals : list V; th_vars : list V }.
  Variable files : string -> string -> option thist.
  Variable mass : string.
  (** datacard_converter.py:122-206 get_histogram *)
  Definition get_histogram (s : option shape) (p b : string) (sys : option string) (demand : bool)
    : result (option thist) :=
    match s with
    | None => Ok None
    | Some s =>
      match files (sh_file s) (hist_name mass s p b sys) with
      | Some h => Ok (Some h)
      | None => if demand then Raise ValueError else Ok None
      end
    end.

  (** datacard_converter.py:218-238 *)
  Definition shape_keys (c : card) (s : shape) : list key :=
    list_prod (if String.eqb (sh_proc s) "*" then "data_obs" :: cd_procs c else [sh_proc s])
              (if String.eqb (sh_chan s) "*" then cd_bins c else [sh_chan s]).
  Definition shape_map (c : card) : list (key * shape) :=
    fold_left (fun d s => fold_left (fun d k => kset k s d) (shape_keys c s) d) (cd_shapes c) [].
  (** datacard_converter.py:257-262 and 321-326 *)
  Definition orelse {A} (a b : option A) : option A := match a with Some _ => a | None => b end.
  Definition shape_info (c : card) (p b : string) : option shape :=
    let m := shape_map c in
    orelse (kget (p, b) m) (orelse (kget ("*", b) m) (orelse (kget (p, "*") m) (kget ("*", "*") m))).

  (** calls made, and the exception that stops the conversion *)
  Definition trace := (list (op V) * option pyexc)%type.
  Definition emit (l : list (op V)) : trace := (l, None).
  Definition fails (e : pyexc) : trace := ([], Some e).
  Definition andthen (a b : trace) : trace :=
    match snd a with Some _ => a | None => (fst a ++ fst b, snd b) end.
  Definition each {A} (f : A -> trace) (l : list A) : trace :=
    fold_right (fun x t => andthen (f x) t) (emit []) l.
  Definition on_ok {A} (r : result A) (f : A -> trace) : trace :=
    match r with Ok a => f a | Raise e => fails e end.

  (** datacard_converter.py:271-275: one bin without flow, filled with the observation *)
  Definition counting (c : card) (b : string) : thist :=
    let x := match dget b (cd_obs c) with Some v => v | None => n0 end in mkTH [(1, 1)] [x] [x].
  Definition is_signal (c : card) (p : string) : bool :=
    match dget p (cd_idx c) with Some z => Z.leb z 0 | None => true end.
  (** datacard_converter.py:255-289: body of the loop over the processes of a bin *)
  Definition nominal (c : card) (b p : string) : trace :=
    on_ok (match shape_info c p b with
           | Some s => get_histogram (Some s) p b None true
           | None => Ok (Some (counting c b))
           end)
      (fun h => match h with
         | None => fails GenericException
         | Some h =>
           if String.eqb p "data_obs"
           then emit [AddChannel (Some b) (th_axes h) false false; AddData b (th_vals h) (th_vars h)]
           else emit [AddProcess (HDense (th_vals h) (th_vars h)) p b (is_signal c p) None]
         end).
  (** datacard_converter.py:252-289 *)
  Definition nominals (c : card) : trace :=
    each (fun b => match dget b (cd_map c) with
                   | None => fails KeyError
                   | Some ps => each (nominal c b) ("data_obs" :: dkeys ps)
                   end) (cd_bins c).

  Definition kw_plain := mkKw false true None.
  Definition kw_free := mkKw false false None.
  Variable k101 : V.     (* the literal 1.01 *)
  (** parts[4][1:-1].split(",") *)
  Definition range_ok (s : string) : result unit :=
    match Parse_Model.splitc ","%char (pyslice 1 (String.length s - 1) (Parse_Model.T s)) with
    | [lo; hi] => _ <- tofloat (Parse_Model.S_ lo) ;; _ <- tofloat (Parse_Model.S_ hi) ;; Ok tt
    | _ => Raise ValueError
    end.
  (** datacard_converter.py:293-305 *)
  Definition rate_param (c : card) (parts : line) : trace :=
    match parts with
    | name :: ch :: pr :: val :: more =>
      on_ok (_ <- tofloat val ;; match more with r :: _ => range_ok r | [] => Ok tt end)
        (fun _ => each (fun b => emit [AddNormSystematic name
             (if String.eqb pr "*" then cd_procs c else [pr]) b [UScalar k101] Average kw_free])
           (if String.eqb ch "*" then cd_bins c else [ch]))
    | _ => fails IndexError
    end.
  (** datacard_converter.py:307-315 add_norm_syst: "down/up" or one number *)
  Definition uncertainty (effect : string) : result (uncval V) :=
    match Parse_Model.splitc "/"%char (Parse_Model.T effect) with
    | [_] => x <- tofloat effect ;; Ok (UScalar x)
    | [dn; up] => u <- tofloat (Parse_Model.S_ up) ;; d <- tofloat (Parse_Model.S_ dn) ;; Ok (UPair u d)
    | _ => Raise ValueError
    end.
  Definition add_norm_syst (name p b effect : string) : trace :=
    on_ok (uncertainty effect) (fun u => emit [AddNormSystematic name [p] b [u] Average kw_plain]).

  Definition no_effect (e : string) : bool := String.eqb e "-" || String.eqb e "0".
  Variable symmetrize : symmode.
  (** datacard_converter.py:320-358: a template variation in one column *)
  Definition shape_syst (c : card) (s : syst) (b p effect : string) : trace :=
    let info := shape_info c p b in
    let demand := negb (String.eqb (sy_type s) "shape?") in
    on_ok (u <- get_histogram info p b (Some (sy_name s ++ "Up")%string) demand ;;
           d <- get_histogram info p b (Some (sy_name s ++ "Down")%string) demand ;; Ok (u, d))
      (fun ud => match ud with
         | (None, None) => add_norm_syst (sy_name s) p b effect
         | (Some u, Some d) =>
           on_ok (tofloat effect) (fun kf =>
             emit [AddSystematic (SPair (HDense (th_vals u) (th_vars u)) (HDense (th_vals d) (th_vars d)))
                     (sy_name s) p b kf true symmetrize false
                     (mkKw false (negb (String.eqb (sy_type s) "shapeU")) None)])
         | _ => on_ok (tofloat effect) (fun _ => fails GenericException)
         end).
  (** datacard_converter.py:317-366 *)
  Definition systematic (c : card) (s : syst) : trace :=
    if smem (sy_type s) ["shape"; "shapeN"; "shape?"; "shapeU"] then
      each (fun ke => if no_effect (snd ke) then emit []
                      else shape_syst c s (fst (fst ke)) (snd (fst ke)) (snd ke)) (sy_effects s)
    else if smem (sy_type s) ["lnN"; "lnU"] then
      each (fun ke => if no_effect (snd ke) then emit []
                      else add_norm_syst (sy_name s) (snd (fst ke)) (fst (fst ke)) (snd ke)) (sy_effects s)
    else emit [].

  (** datacard_converter.py:208-367 convert_to_hdf5, after parsing *)
  Definition convert (c : card) : trace :=
    andthen (nominals c) (andthen (each (rate_param c) (cd_rateparams c)) (each (systematic c) (cd_systs c))).
  (** bin/rabbit_text2hdf5.py:53-76: parse, convert, write *)
  Definition text2hdf5 (cfg : config) (lines : list line) : result (workspace V) :=
    c <- parse lines ;;
    st <- run cfg init_state (fst (convert c)) ;;
    match snd (convert c) with Some e => Raise e | None => write cfg st end.
End Card.
Arguments card : clear implicits.
Arguments thist : clear implicits.
