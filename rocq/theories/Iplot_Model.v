(** The plots of the templates of an input file: bin/rabbit_plot_inputdata.py:107-622, with the histograms of
    rabbit/debugdata.py:24-122.
    Simplifications: real numbers; the index in a histogram gives a bin for each name of an axis; names of axes,
    processes and systematic variations are distinct; the label of a process is its name and the colours are left out
    (no configuration with get_labels_colors_procs_sorted, no --processGrouping); no division by widths of bins
    (axes ptll, mll, ptVgen); a plot is what is given to the functions that draw; AttributeError and UnboundLocalError
    are [GenericException]; plots that are written before an exception are not kept. *)
From Coq Require Import Reals List Arith Bool String Ascii.
From Verif Require Writer_Model.
From Verif Require Import RBase PyList Hplot_Model.
Import ListNotations.
Local Open Scope nat_scope.
Local Open Scope string_scope.

Definition asg := string -> nat.
Definition upd (g : asg) (n : string) (i : nat) : asg := fun m => if String.eqb m n then i else g m.
Definition upds (idxs : list (string * nat)) (g : asg) : asg := fold_left (fun g p => upd g (fst p) (snd p)) idxs g.
(** all bins of some axes, the last axis fastest *)
Fixpoint points (axes : list (string * nat)) (g : asg) : list asg :=
  match axes with [] => [g] | a :: r => flat_map (fun i => points r (upd g (fst a) i)) (seq 0 (snd a)) end.
Definition origin : asg := fun _ => 0.
Definition mem (n : string) (l : list string) : bool := existsb (String.eqb n) l.
Definition without (names : list string) (axes : list (string * nat)) := filter (fun a => negb (mem (fst a) names)) axes.
Definition within (names : list string) (axes : list (string * nat)) := filter (fun a => mem (fst a) names) axes.
(** the axes with these names, in the order of the names *)
Definition axes_named (names : list string) (axes : list (string * nat)) := flat_map (fun n => filter (fun a => String.eqb (fst a) n) axes) names.

(** a histogram; values outside of its axes do not matter *)
Record hist := mkHist { x_axes : list (string * nat); x_val : asg -> R }.
Definition sum_hist (h : hist) : R := sumL (x_val h) (points (x_axes h) origin).
(** h.project and hh.unrolledHist with these axes *)
Definition project (names : list string) (h : hist) : hist :=
  mkHist (axes_named names (x_axes h)) (fun g => sumL (x_val h) (points (without names (x_axes h)) g)).
(** the values in the order of the bins of the plot *)
Definition shown (h : hist) : list R := map (x_val h) (points (x_axes h) origin).
(** h[idxs] *)
Definition in_range (axes idxs : list (string * nat)) : bool :=
  forallb (fun p => existsb (fun a => String.eqb (fst a) (fst p) && Nat.ltb (snd p) (snd a)) axes) idxs.
Definition fixed (idxs : list (string * nat)) (h : hist) : hist := mkHist (without (map fst idxs) (x_axes h)) (fun g => x_val h (upds idxs g)).
Definition scaled (s : R) (h : hist) : hist := mkHist (x_axes h) (fun g => (s * x_val h g)%R).
Definition added (hs : list hist) : hist := mkHist (match hs with h :: _ => x_axes h | [] => [] end) (fun g => sumL (fun h => x_val h g) hs).

(** one channel: axes, processes, templates, data (none if masked) and the variations in the directions Down and Up *)
Record chan := mkC {
  c_axes : list (string * nat); c_procs : list string; c_nom : string -> asg -> R; c_data : option (asg -> R);
  c_down : string -> string -> asg -> R; c_up : string -> string -> asg -> R }.
Record args := mkArgs {
  a_channels : option (list string); a_processes : list string; a_vars : list string; a_labels : list string;
  a_selaxes : list string; a_select : list nat; a_hists : list string;
  a_split : bool; a_nostack : bool; a_norm : bool; a_nodata : bool; a_onesided : bool; a_invert : bool; a_postfix : string }.
(** what is drawn: the prediction and its label if it is drawn as a line, the stack, the data and for each variation its
    label, the solid and the dashed line *)
Record plot := mkPlot {
  p_file : string; p_axes : list string; p_pred : hist; p_line : option string; p_stack : list (string * hist);
  p_data : option hist; p_vars : list (string * hist * option hist) }.
(** the ratio panel: a line over the prediction *)
Definition ratio (p : plot) (h : hist) (g : asg) : R := (x_val h g / x_val (p_pred p) g)%R.

(** ** combinations of axes, lines 122-138 *)
Fixpoint combs (k : nat) (l : list string) : list (list string) :=
  match k, l with
  | 0, _ => [[]]
  | S _, [] => []
  | S k', x :: r => (map (cons x) (combs k' r) ++ combs k r)%list
  end.
Definition combinations (names : list string) : list (list string) :=
  (map (fun n => [n]) names ++ flat_map (fun k => combs k names) (seq 2 (List.length names - 1)))%list.
(** str.split *)
Fixpoint split_at (sep : ascii) (s : string) : list string :=
  match s with
  | EmptyString => [EmptyString]
  | String c r => if Ascii.eqb c sep then EmptyString :: split_at sep r
                  else match split_at sep r with h :: t => String c h :: t | [] => [String c EmptyString] end
  end.
Definition split_dash : string -> list string := split_at "-".
Definition same_set (a b : list string) : bool := forallb (fun x => mem x b) a && forallb (fun x => mem x a) b.
Definition wanted (hists : list string) (names : list string) : bool :=
  match hists with [] => true | _ => existsb (fun h => same_set names (split_dash h)) hists end.

(** ** one plot, lines 180-458 *)
(** a variation: its axes and the values of each process *)
Record syst := mkS { s_axes : list (string * nat); s_val : string -> asg -> R }.
Definition of_proc (p : string) (s : syst) : hist := mkHist (s_axes s) (s_val s p).
Definition of_all (procs : list string) (s : syst) : hist := mkHist (s_axes s) (fun g => sumL (fun p => s_val s p g) procs).
Definition scaled_syst (k : R) (s : syst) : syst := mkS (s_axes s) (fun p g => (k * s_val s p g)%R).
Definition fixed_syst (idxs : list (string * nat)) (s : syst) : syst := mkS (without (map fst idxs) (s_axes s)) (fun p g => s_val s p (upds idxs g)).
(** a string is the list of its characters *)
Fixpoint chars (s : string) : list string := match s with EmptyString => [] | String c r => String c EmptyString :: chars r end.
Fixpoint zip_vars (one : bool) (view : syst -> hist) (up dn : list syst) (labels : list string) : list (string * hist * option hist) :=
  match up, dn, labels with
  | u :: up, d :: dn, l :: labels => (l, view u, if one then None else Some (view d)) :: zip_vars one view up dn labels
  | _, _, _ => []
  end.
(** lines 440-450 *)
Definition file_name (a : args) (proc : string) (names : list string) (channel : string) (sel : option (list (string * nat))) : string :=
  "hist_" ++ (if a_nostack a then "" else "stack_") ++ (if a_split a then proc ++ "_" else "") ++ String.concat "_" names ++ "_" ++ channel ++
  (match sel with None => "" | Some l => "_" ++ String.concat "_" (map (fun p => fst p ++ Writer_Model.nat_str (snd p)) l) end) ++
  (if String.eqb (a_postfix a) "" then "" else "_" ++ a_postfix a).
(** [all]: the processes of the file; [labels] and [procs] are lists, or single strings with --splitByProcess ([proc]) *)
Definition make_plot (a : args) (all : list string) (hs : list hist) (data : option hist) (up dn : list syst) (names : list string)
  (sel : option (list (string * nat))) (channel : string) (labels : list string) (proc : string) (labels_syst : list string) : result plot :=
  let fu := project names in
  let stack := map fu hs in
  let view := fun s : syst => fu (if a_split a then of_proc proc s else of_all all s) in
  let h_data := option_map fu data in
  let file := file_name a proc names channel sel in
  if a_split a then
    match stack, labels with
    | h :: _, l :: _ => Ok (mkPlot file names h (Some l) [] h_data (zip_vars (a_onesided a) view up dn labels_syst))
    | _, _ => Raise IndexError
    end
  else
    let pred := added stack in
    let finish k := mkPlot file names (scaled k pred) (if a_nostack a then Some "Prediction" else None) (if a_nostack a then [] else combine labels (map (scaled k) stack)) h_data
                      (zip_vars (a_onesided a) view (map (scaled_syst k) up) (map (scaled_syst k) dn) labels_syst) in
    if a_norm a then match h_data with None => Raise GenericException | Some d => Ok (finish (sum_hist d / sum_hist pred)%R) end
    else Ok (finish 1%R).

(** ** all plots of one slice, lines 107-177; [o1] and [o2] are passed on in this order *)
Definition nonzero (h : hist) : bool := existsb (fun g => negb (Reqb (x_val h g) 0)) (points (x_axes h) origin).
Fixpoint seqr {A} (l : list (result A)) : result (list A) :=
  match l with [] => Ok [] | r :: l => x <- r ;; y <- seqr l ;; Ok (x :: y) end.
Definition make_plots (a : args) (all : list string) (hs : list hist) (data : option hist) (o1 o2 : list syst)
  (sel : option (list (string * nat))) (channel : string) (procs : list string) (labels_syst : list string) : result (list plot) :=
  match hs with
  | [] => Raise IndexError
  | h0 :: _ =>
    let names0 := map fst (x_axes h0) in
    match names0 with [] => Raise GenericException | _ =>      (* all axes are fixed: a number has no axes *)
    let names := if a_invert a then rev names0 else names0 in
    seqr (flat_map (fun ns =>
      if a_split a then
        map (fun ph : string * hist => make_plot a all [snd ph] data o1 o2 ns sel channel (chars (fst ph)) (fst ph) labels_syst)
            (filter (fun ph : string * hist => nonzero (snd ph)) (combine procs hs))
      else [make_plot a all hs data o1 o2 ns sel channel procs "" labels_syst])
      (filter (wanted (a_hists a)) (combinations names)))
    end
  end.

(** ** main, lines 461-622 *)
(** lines 474-486: names that are not in the file are skipped; missing labels are the names *)
Definition variations (known vars labels : list string) : list (string * string) :=
  flat_map (fun kv : nat * string => if mem (snd kv) known then [(snd kv, nth (fst kv) labels (snd kv))] else []) (combine (seq 0 (List.length vars)) vars).
(** lines 499-508 *)
Definition chosen_procs (a : args) (all : list string) : list string :=
  match a_processes a with [] => all | l => filter (fun p => mem p all) l end.
Definition channel_plots (a : args) (known : list string) (channel : string) (c : chan) : result (list plot) :=
  let procs := chosen_procs a (c_procs c) in
  let hs := map (fun p => mkHist (c_axes c) (c_nom c p)) procs in
  let vs := variations known (a_vars a) (a_labels a) in
  let dn := map (fun v => mkS (c_axes c) (c_down c (fst v))) vs in
  let up := map (fun v => mkS (c_axes c) (c_up c (fst v))) vs in
  let data := if a_nodata a || a_split a then None else option_map (mkHist (c_axes c)) (c_data c) in
  match hs with [] => Raise IndexError | _ =>
  match axes_named (a_selaxes a) (c_axes c) with
  | [] => make_plots a (c_procs c) hs data dn up None channel procs (map snd vs)
  | sel =>
    let bins := match a_select a with [] => product (map (fun x => seq 0 (snd x)) (within (a_selaxes a) (c_axes c))) | l => [l] end in
    ls <- seqr (map (fun b =>
      let idxs := combine (map fst sel) b in
      if in_range (c_axes c) idxs then
        make_plots a (c_procs c) (map (fixed idxs) hs) (option_map (fixed idxs) data) (map (fixed_syst idxs) dn) (map (fixed_syst idxs) up) (Some idxs) channel procs (map snd vs)
      else Raise IndexError) bins) ;;
    Ok (List.concat ls)
  end end.
Definition all_plots (a : args) (known : list string) (channels : list (string * chan)) : result (list plot) :=
  ls <- seqr (map (fun kc => channel_plots a known (fst kc) (snd kc))
    (filter (fun kc => match a_channels a with None => true | Some l => mem (fst kc) l end) channels)) ;;
  Ok (List.concat ls).
