(** The plot of pulls and impacts: bin/rabbit_plot_pulls_and_impacts.py:239-1190 with rabbit/io_tools.py.
    Simplifications: real numbers; a table has a list of column names and rows of a label with named cells, a missing
    cell is not-a-number; both tables of a merge have the same columns, which is so because they are made with the same
    options; sorting is stable; --otherExtensions names other formats than html; axes, legends, colours and titles are left out, a figure is the list of its traces; the
    histograms of the file are those of [Read_Model]. *)
From Coq Require Import Reals List Arith Bool String.
From Verif Require Param_Model Shape.
From Verif Require Import RBase PyList PyDict Order Read_Model.
Import ListNotations.
Local Open Scope nat_scope.
Local Open Scope string_scope.

(** ** tables *)
Definition row := (string * dict R)%type.
Record table := mkT { t_cols : list string; t_rows : list row }.
(** a column: one value per row or the same value everywhere *)
Inductive column := Each (l : list R) | Same (x : R).
Definition set_col (name : string) (v : column) (t : table) : result table :=
  match v with
  | Same x => Ok (mkT (set_add name (t_cols t)) (map (fun r : row => (fst r, dset name x (snd r))) (t_rows t)))
  | Each l => if Nat.eqb (List.length l) (List.length (t_rows t))
              then Ok (mkT (set_add name (t_cols t)) (map (fun rx : row * R => (fst (fst rx), dset name (snd rx) (snd (fst rx)))) (combine (t_rows t) l)))
              else Raise ValueError
  end.
Fixpoint set_cols (l : list (string * result column)) (t : table) : result table :=
  match l with [] => Ok t | (n, v) :: r => v <- v ;; t <- set_col n v t ;; set_cols r t end.
(** the columns of an array: a[..., j], also of an array without second axis, whose entry j is the same for all rows *)
Definition component (j : nat) (a : arr) : result column :=
  match a with
  | A2 l => Ok (Each (map (fun x => nth j x 0%R) l))
  | A1 l => match nth_error l j with Some x => Ok (Same x) | None => Raise IndexError end
  end.
Definition absmax (a : arr) : result column :=
  match a with
  | A2 l => Ok (Each (map (fun x => maxl (map Rabs x)) l))
  | A1 [] => Raise ValueError
  | A1 l => Ok (Same (maxl (map Rabs l)))
  end.
Definition whole (a : arr) : result column := match a with A1 l => Ok (Each l) | A2 _ => Raise ValueError end.
Definition map_arr (f : R -> R) (a : arr) : arr := match a with A1 l => A1 (map f l) | A2 l => A2 (map (map f) l) end.
Definition map_col (f : R -> R) (c : result column) : result column := c <- c ;; Ok (match c with Each l => Each (map f l) | Same x => Same (f x) end).

(** ** lines 624-744 *)
Section Read.
  Variable search : string -> string -> bool.
  Definition positions (name : string) (labels : list string) : list nat := map fst (filter (fun p : nat * string => String.eqb (snd p) name) (combine (seq 0 (List.length labels)) labels)).
  (** impacts /= totals[labels == "Total"].flatten() *)
  Definition totals (a : arr) (labels : list string) : list R :=
    match a with A1 l => map (fun i => nth i l 0%R) (positions "Total" labels) | A2 l => flat_map (fun i => nth i l []) (positions "Total" labels) end.
  Definition div_by (a : arr) (t : list R) : result arr :=
    match a, t with
    | _, [x] => Ok (map_arr (fun y => (y / x)%R) a)
    | A2 l, [x; y] => Ok (A2 (map (fun r => [nth 0 r 0 / x; nth 1 r 0 / y]%R) l))
    | _, _ => Raise ValueError
    end.
  (** impacts[labels == "stat"] = stat *)
  Definition override (stat : R) (labels : list string) (a : arr) : arr :=
    if Rltb 0 stat then
      let hit := fun i => String.eqb (nth i labels "") "stat" in
      match a with
      | A1 l => A1 (map (fun ix : nat * R => if hit (fst ix) then stat else snd ix) (combine (seq 0 (List.length l)) l))
      | A2 l => A2 (map (fun ix : nat * list R => if hit (fst ix) then map (fun _ => stat) (snd ix) else snd ix) (combine (seq 0 (List.length l)) l))
      end
    else a.
  Definition mask_of (group : bool) (grouping filters : option (list string)) (labels : list string) : option (list bool) :=
    if (group && match grouping with Some _ => true | None => false end) || match filters with Some _ => true | None => false end
    then Some (map (fun l => (match grouping with Some (g :: gs) => negb group || smem l (g :: gs) | _ => true end) &&
                             (match filters with Some (f :: fs) => existsb (fun f => search f l) (f :: fs) | _ => true end)) labels)
    else None.
  Definition opt_list {A} (m : option (list bool)) (l : list A) : result (list A) := match m with Some m => mask_list m l | None => Ok l end.
  Definition opt_arr (m : option (list bool)) (a : arr) : result arr := match m with Some m => mask_arr m a | None => Ok a end.
  Definition impact_cols (asym : bool) (i : arr) : list (string * result column) :=
    if asym then [("impact_down", component 1 i); ("impact_up", component 0 i); ("absimpact", absmax i)]
    else [("impact_down", whole (map_arr Ropp i)); ("impact_up", whole i); ("absimpact", whole (map_arr Rabs i))].
  Definition newpull (c p : R) : R := if Rltb 0 (1 - c * c) then (p / sqrt (1 - c * c))%R else 999%R.
  Definition constraint_cols (asym nonprofiled : bool) (pull : list R) (c : arr) : list (string * result column) :=
    if asym then
      if nonprofiled then [("constraint_down", whole (map_arr Ropp c)); ("constraint_up", whole c)]
      else [("constraint_down", map_col Ropp (component 1 c)); ("constraint_up", component 0 c)]
    else [("constraint", whole c); ("newpull", c <- whole c ;; match c with Each c => Ok (Each (map (fun cp => newpull (fst cp) (snd cp)) (combine c pull))) | Same _ => Raise ValueError end)].
  Record choice := mkC { o_group : bool; o_type : string; o_grouping : option (list string); o_asym : bool; o_filters : option (list string);
                         o_stat : R; o_normalize : bool; o_scale : R; o_diff : bool }.
  (** what is read: labels, impacts if a parameter is given, pulls and constraints *)
  Definition read_parts (d : dict hist) (poi : option string) (o : choice) : result (list string * option arr * option (list R * list R * arr)) :=
    match poi with
    | Some p =>
      if o_group o then
        il <- read_impacts d p true (o_type o) (negb (String.eqb (o_type o) "nonprofiled")) (o_asym o) ;;
        i <- (if o_normalize o then div_by (fst il) (totals (fst il) (snd il)) else Ok (fst il)) ;;
        Ok (snd il, Some (override (o_stat o) (snd il) i), None)
      else
        q <- read_impacts_pulls search d p false (o_type o) false (o_asym o) ;;
        let '((pulls, pulls0, c, _), (i, labels)) := q in
        i <- (if o_normalize o then t <- read_impacts d p true (o_type o) true (o_asym o) ;; div_by i (totals (fst t) (snd t)) else Ok i) ;;
        Ok (labels, Some (override (o_stat o) labels i), Some (pulls, pulls0, c))
    | None =>
      h <- lookup "parms" d ;; a <- axis "parms" h ;;
      p <- pulls_and_constraints search d false (o_asym o) None None ;;
      q <- pulls_and_constraints search d true false None None ;;
      let '(_, pulls, c) := p in let '(_, pulls0, _) := q in
      Ok (snd a, None, Some (pulls, pulls0, c))
    end.
  Definition sub (a b : list R) : list R := map (fun xy => (fst xy - snd xy)%R) (combine a b).
  Definition frame (o : choice) (labels : list string) (impacts : option arr) (pc : option (list R * list R * arr)) : result table :=
    let mask := mask_of (o_group o) (o_grouping o) (o_filters o) labels in
    labels <- opt_list mask labels ;;
    let t := mkT [] (map (fun l => (l, [])) labels) in
    t <- (match impacts with
          | Some i => i <- opt_arr mask i ;;
                      set_cols (impact_cols (o_asym o) (if negb (Reqb (o_scale o) 0) && negb (o_normalize o) then map_arr (fun x => (x * o_scale o)%R) i else i)) t
          | None => Ok t
          end) ;;
    match pc with
    | None => Ok t
    | Some (pulls, pulls0, c) =>
      pulls <- opt_list mask pulls ;; c <- opt_arr mask c ;; pulls0 <- opt_list mask pulls0 ;;
      let pull := if o_diff o then sub pulls pulls0 else pulls in
      set_cols ([("pull_prefit", Ok (Each pulls0)); ("pull", Ok (Each pull)); ("abspull", Ok (Each (map Rabs pull)))] ++
                constraint_cols (o_asym o) (String.eqb (o_type o) "nonprofiled") pull c) t
    end.
  Definition drop (name : string) (t : table) : table := mkT (t_cols t) (filter (fun r : row => negb (String.eqb (fst r) name)) (t_rows t)).
  Definition read_info (d : dict hist) (poi : option string) (o : choice) : result table :=
    p <- read_parts d poi o ;;
    let '(labels, i, pc) := p in
    t <- frame o labels i pc ;;
    Ok (match poi with Some n => if String.eqb n "" then t else drop n t | None => t end).

  (** ** lines 747-856: impacts on one bin; labels and impacts are those of its histogram *)
  Definition common (a b : list string) : list string := sort_k (fun x => x) string_c (filter (fun x => smem x b) a).
  Definition at_label (labels : list string) (l : list R) (n : string) : R := match index_of n labels with Some i => nth i l 0%R | None => 0%R end.
  (** neither --pullsNoDiff nor asymmetric impacts get here *)
  Definition bin_choice (o : choice) : choice := mkC (o_group o) "global" (o_grouping o) false (o_filters o) (o_stat o) (o_normalize o) (o_scale o) true.
  Definition read_bin (d : dict hist) (labels : list string) (impacts : list R) (total : R) (o : choice) : result table :=
    if o_group o then
      let labels := (labels ++ ["Total"])%list in
      let i := (impacts ++ [total])%list in
      let i := if o_normalize o then map (fun x => (x / total)%R) i else i in
      frame (bin_choice o) labels (Some (override (o_stat o) labels (A1 i))) None
    else
      p <- pulls_and_constraints search d false false None None ;;
      q <- pulls_and_constraints search d true false None None ;;
      let '(plabels, pulls, c) := p in let '(_, pulls0, _) := q in
      c <- scalars c ;;
      let names := common labels plabels in
      let i := map (at_label labels impacts) names in
      let i := if o_normalize o then map (fun x => (x / total)%R) i else i in
      frame (bin_choice o) names (Some (override (o_stat o) names (A1 i))) (Some (map (at_label plabels pulls) names, map (at_label plabels pulls0) names, A1 (map (at_label plabels c) names))).
End Read.

(** ** df.merge(df_ref, how="outer", on="label", suffixes=("", "_ref")) *)
Definition ref_of (c : string) : string := c ++ "_ref".
Definition ref_cells (d : dict R) : dict R := map (fun cx => (ref_of (fst cx), snd cx)) d.
Definition all_labels (a b : table) : list string := sort_k (fun x => x) string_c (fold_right set_add [] (map fst (t_rows a) ++ map fst (t_rows b))).
Definition merge (a b : table) : table :=
  mkT (t_cols a ++ map ref_of (t_cols b))
    (flat_map (fun n =>
       let l := filter (fun r : row => String.eqb (fst r) n) (t_rows a) in
       let r := filter (fun r : row => String.eqb (fst r) n) (t_rows b) in
       match l, r with
       | [], _ => map (fun y : row => (n, ref_cells (snd y))) r
       | _, [] => l
       | _, _ => flat_map (fun x : row => map (fun y : row => (n, (snd x ++ ref_cells (snd y))%list)) r) l
       end) (all_labels a b)).
(** lines 941-1085 *)
Definition translate (names : dict string) (t : table) : table :=
  mkT (t_cols t) (map (fun r : row => (match dget (fst r) names with Some n => n | None => fst r end, snd r)) (t_rows t)).
Definition load (search : string -> string -> bool) (names : dict string) (d : dict hist) (ref : option (dict hist)) (poi : option string) (o : choice) (scale_ref : R) : result (option table) :=
  t <- read_info search d poi o ;;
  t <- (match ref with
        | Some d' => t' <- read_info search d' poi (mkC (o_group o) (o_type o) (o_grouping o) (o_asym o) (o_filters o) (o_stat o) (o_normalize o) (if Rltb 0 scale_ref then scale_ref else o_scale o) (o_diff o)) ;; Ok (merge t t')
        | None => Ok t
        end) ;;
  Ok (match t_rows t with [] => None | _ => Some (translate names t) end).

(** ** lines 859-938 *)
(** after fillna(0) *)
Definition cell (c : string) (r : row) : R := match dget c (snd r) with Some x => x | None => 0%R end.
Inductive sort_mode := Plain | OfRef | Diff | Both.
Definition flip (c : comparison) : comparison := match c with Lt => Gt | Eq => Eq | Gt => Lt end.
Definition by_cells (cs : list string) (x y : row) : comparison := fold_right (fun c k => match Rc (cell c x) (cell c y) with Eq => k | o => o end) Eq cs.
Definition in_order (ascending : bool) (c : row -> row -> comparison) (x y : row) : comparison := if ascending then c x y else flip (c x y).
Definition sort_rows (ascending : bool) (c : row -> row -> comparison) (l : list row) : list row := sort_k (fun x => x) (in_order ascending c) l.
Definition sort_plain (ascending : bool) (name : string) (t : table) : table :=
  if String.eqb name "label" then mkT (t_cols t) (sort_rows ascending (fun x y => string_c (fst x) (fst y)) (t_rows t))
  else if smem name (t_cols t) then mkT (t_cols t) (sort_rows ascending (by_cells (name :: (if smem (ref_of name) (t_cols t) then [ref_of name] else []))) (t_rows t))
  else t.
Definition sort_new (ascending : bool) (key suffix : string) (f : R -> R -> R) (t : table) : result table :=
  if smem key (t_cols t) && smem (ref_of key) (t_cols t) then
    t <- set_col (key ++ suffix) (Each (map (fun r => f (cell key r) (cell (ref_of key) r)) (t_rows t))) t ;; Ok (sort_plain ascending (key ++ suffix) t)
  else Raise KeyError.
Definition sorted_table (ascending : bool) (key : string) (m : sort_mode) (t : table) : result table :=
  match m with
  | Plain => Ok (sort_plain ascending key t)
  | OfRef => Ok (sort_plain ascending (ref_of key) t)
  | Diff => sort_new ascending key "_diff" (fun x y => Rabs (x - y)) t
  | Both => sort_new ascending key "_both" (if ascending then Rmax else Rmin) t
  end.
(** df[-num:] *)
Definition last_rows (num : nat) (t : table) : table :=
  if negb (Nat.eqb num 0) && Nat.ltb num (List.length (t_rows t)) then mkT (t_cols t) (skipn (List.length (t_rows t) - num) (t_rows t)) else t.

(** ** lines 239-620: the traces *)
Inductive trace :=
| Bar (name : string) (l : list (string * option R))
| Pull (l : list (string * (R * R * R)))        (* label, value, error to the left and to the right *)
| RefBox (l : list (string * (R * R)))          (* label, base and width *)
| NewPull (name : string) (l : list (string * R)).
Record look := mkL { l_pulls : bool; l_one_sided : bool; l_impacts : bool; l_asym : bool; l_asym_pulls : bool }.
Definition cells (c : string) (t : table) : result (list R) := if smem c (t_cols t) then Ok (map (cell c) (t_rows t)) else Raise KeyError.
Definition labelled {A} (t : table) (l : list A) : list (string * A) := combine (map fst (t_rows t)) l.
Definition include_ref (t : table) : bool := existsb (fun c => smem c (t_cols t)) ["impact_ref"; "absimpact_ref"; "pull_ref"; "constraint_ref"].
Definition bar (one_sided : bool) (name c : string) (t : table) : result trace :=
  l <- cells c t ;; Ok (Bar name (labelled t (map (fun x => if one_sided && Rltb x 0 then None else Some x) l))).
Definition opt_trace (b : bool) (t : result trace) : result (list trace) := if b then t <- t ;; Ok [t] else Ok [].
Definition impact_traces (k : look) (t : table) : result (list trace) :=
  if l_impacts k then
    a <- cells "absimpact" t ;;
    if existsb (fun x => negb (Reqb x 0)) a then
      d <- cells "impact_down" t ;;
      let both := l_one_sided k && negb (existsb (fun x => Rltb 0 x) d) in
      let up := if both then "+/-" else "+" in
      w <- bar (l_one_sided k) up "impact_up" t ;;
      wr <- opt_trace (include_ref t) (bar (l_one_sided k) (up ++ " ref") "impact_up_ref" t) ;;
      x <- opt_trace (negb both) (bar (l_one_sided k) "-" "impact_down" t) ;;
      xr <- opt_trace (negb both && include_ref t) (bar (l_one_sided k) "- ref" "impact_down_ref" t) ;;
      Ok ((w :: wr) ++ x ++ xr)%list
    else Ok []
  else Ok [].
Definition zip3 (a b c : list R) : list (R * R * R) := combine (combine a b) c.
Definition pull_traces (k : look) (t : table) : result (list trace) :=
  if l_pulls k then
    p <- cells "pull" t ;;
    er <- (if l_asym k then u <- cells "constraint_up" t ;; d <- cells "constraint_down" t ;; Ok (d, u) else c <- cells "constraint" t ;; Ok (c, c)) ;;
    r <- (if include_ref t then
            q <- cells "pull_ref" t ;;
            bw <- (if l_asym k then d <- cells "constraint_down" t ;; u <- cells "constraint_up" t ;; Ok (sub q d, map (fun x => (fst x + snd x)%R) (combine u d))
                   else c <- cells "constraint_ref" t ;; Ok (sub q c, map (fun x => (2 * x)%R) c)) ;;
            Ok [RefBox (labelled t (combine (fst bw) (snd bw)))]
          else Ok []) ;;
    n <- (if l_asym_pulls k then
            n <- cells "newpull" t ;;
            nr <- (if include_ref t then n <- cells "newpull_ref" t ;; Ok [NewPull "ref" (labelled t n)] else Ok []) ;;
            Ok (NewPull "" (labelled t n) :: nr)
          else Ok []) ;;
    Ok ((Pull (labelled t (zip3 p (fst er) (snd er))) :: r) ++ n)%list
  else Ok [].
Definition figure (k : look) (t : table) : result (list trace) := i <- impact_traces k t ;; p <- pull_traces k t ;; Ok (i ++ p)%list.
(** the figures and the extensions of the files they go to: lines 916-938 *)
Definition make_plots (ascending : bool) (key : string) (m : sort_mode) (num : nat) (others : list string) (k : look) (t : table) : result (list (string * list trace)) :=
  t <- sorted_table ascending key m t ;;
  full <- figure k t ;;
  cut <- figure k (last_rows num t) ;;
  match others with
  | [] => Ok [("html", cut)]
  | _ => let rest := filter (fun e => negb (String.eqb e "html")) others in
         if negb (Nat.eqb num 0) && Nat.ltb num (List.length (t_rows t)) then match rest with [] => Raise IndexError | _ => Ok (("html", full) :: map (fun e => (e, cut)) rest) end
         else Ok (("html", cut) :: map (fun e => (e, cut)) rest)
  end.

(** ** lines 1276-1340: the channels and files of impacts on bins *)
Fixpoint prefix (p s : string) : bool :=
  match p, s with "", _ => true | String a p, String b s => Ascii.eqb a b && prefix p s | _, "" => false end.
(** [x in s] for strings *)
Fixpoint substring_of (x s : string) : bool := prefix x s || match s with "" => false | String _ s => substring_of x s end.
Definition wanted_channels (arg : option string) (channels : list string) : list string :=
  match arg with Some a => if String.eqb a "" then channels else filter (fun c => substring_of c a) channels | None => channels end.
Definition bin_file (impacts fittype : string) (group pulls : bool) (axes : list Param_Model.axis) (idx : list nat) : string :=
  Param_Model.join_names ((if negb group && pulls then ["pulls_and"] else []) ++ [impacts; fittype] ++ (if group then ["grouped"] else []) ++ [Param_Model.bin_label axes idx])%list ++ ".html".
(** channel, grouped or not, bin and file of every plot *)
Definition bin_files (impacts fittype : string) (pulls : bool) (modes : list bool) (arg : option string) (channels : list (string * list Param_Model.axis)) : list (string * bool * list nat * string) :=
  flat_map (fun ch => if smem (fst ch) (wanted_channels arg (map fst channels)) then
     flat_map (fun g => map (fun idx => (fst ch, g, idx, bin_file impacts fittype g pulls (snd ch) idx)) (Shape.all_idx (map Param_Model.ax_size (snd ch)))) modes else []) channels.
