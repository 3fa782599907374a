(** The plots of the uncertainties of histograms: bin/rabbit_plot_hists_uncertainties.py:111-459.
    Simplifications: real numbers; the quotient of histograms is that of their bins, with the divisor as a constant for the
    variance (the cutoffs of divideHists in wums are left out); the stored impacts have the axes of the histogram and their
    names; names of axes and of impacts are distinct. A plot is the lines given to hep.histplot with their labels and
    colours; other decorations, and the options that the script does not use, are left out. A slice in which no axis is
    left cannot be drawn ([GenericException]). Plots that are written before an exception are not kept. *)
From Coq Require Import Reals List Arith Bool String Ascii.
From Verif Require Import RBase PyList Hplot_Model Iplot_Model.
Import ListNotations.
Local Open Scope nat_scope.
Local Open Scope string_scope.

(** hist_postfit_inclusive and the impacts of a channel *)
Record chan := mkC {
  c_axes : list (string * nat); c_val : list nat -> R; c_var : list nat -> R;
  c_impacts : string -> option (list string * (string -> list nat -> R)) }.
Record args := mkArgs {
  a_absolute : bool; a_mapping : list (list string); a_channels : option (list string); a_filter : option (list string);
  a_selaxes : list string; a_invert : bool; a_type : string; a_postfix : string; a_prelim : bool;
  a_grouping : option (list string); a_translate : string -> string }.    (* the last two from the configuration *)
(** a line; the total has no number of a colour (it is black) *)
Record line := mkL { l_label : string; l_colour : option nat; l_vals : list R }.
Record plot := mkPlot { p_file : string; p_axes : list string; p_lines : list line }.

(** ** the numbers, lines 284-295 *)
Definition impact (a : args) (c : chan) (imp : string -> list nat -> R) (u : string) (i : list nat) : R :=
  if a_absolute a then imp u i else (imp u i / c_val c i * 100)%R.
Definition total (a : args) (c : chan) (i : list nat) : R :=
  if a_absolute a then sqrt (c_var c i) else (sqrt (c_var c i / (c_val c i * c_val c i)) * 100)%R.

(** ** one plot, lines 111-237: [u] lists the uncertainties, the histograms are functions of the index in [axes] *)
Definition unrolled (inv : bool) (axes : list (string * nat)) (f : list nat -> R) : list R :=
  if inv then map (fun v => f (rev v)) (bins_of (rev axes)) else map f (bins_of axes).
Definition in_group (g : option (list string)) (l : string) : bool := match g with None => true | Some g => mem l g end.
Definition ncolours (a : args) (labels : list string) : nat :=
  let n := match a_grouping a with Some g => List.length g | None => List.length labels end in if Nat.leb n 10 then 10 else 20.
Definition make_plot (a : args) (axes : list (string * nat)) (us : list string) (imp : string -> list nat -> R) (tot : list nat -> R) (suffix : string) : result plot :=
  match axes with
  | [] => Raise GenericException
  | _ =>
    let inv := a_invert a && Nat.ltb 1 (List.length axes) in
    let names := map fst (if inv then rev axes else axes) in
    let drawn := filter (in_group (a_grouping a)) us in
    let lines := map (fun ku : nat * string => mkL (a_translate a (snd ku)) (Some (Nat.modulo (fst ku) (ncolours a us))) (unrolled inv axes (imp (snd ku))))
                   (combine (seq 1 (List.length drawn)) drawn) in
    let tl := match a_grouping a with
              | Some g => if mem "Total" g then [mkL (a_translate a "Total") None (unrolled inv axes tot)] else []
              | None => []
              end in
    let file := String.concat "_" (filter (fun s => negb (String.eqb s "")) (["uncertainties"; a_postfix a] ++ names ++ [suffix])%list) ++
                (if a_absolute a then "_absolute" else "") ++ (if a_prelim a then "_preliminary" else "") in
    Ok (mkPlot file names (lines ++ tl)%list)
  end.

(** ** the plots of a channel, lines 259-384 *)
Definition uncertainties (a : args) (c : chan) : list string :=
  let all := match c_impacts c ("hist_postfit_inclusive_" ++ a_type a ++ "_impacts_grouped") with Some (l, _) => l | None => [] end in
  match a_filter a with None => all | Some f => filter (fun p => mem p f) all end.
Definition impacts_of (a : args) (c : chan) : string -> list nat -> R :=
  match c_impacts c ("hist_postfit_inclusive_" ++ a_type a ++ "_impacts_grouped") with Some (_, f) => f | None => fun _ _ => 0%R end.
Definition channel_plots (a : args) (channel : string) (c : chan) : result (list plot) :=
  let us := uncertainties a c in
  let imp := impact a c (impacts_of a c) in
  let sel := filter (selected (a_selaxes a)) (c_axes c) in
  match sel with
  | [] => p <- make_plot a (c_axes c) us imp (total a c) channel ;; Ok [p]
  | _ =>
    let others := filter (fun x => negb (selected (a_selaxes a) x)) (c_axes c) in
    seqr (map (fun b => make_plot a others us (fun u i => imp u (weave (a_selaxes a) (c_axes c) b i)) (fun i => total a c (weave (a_selaxes a) (c_axes c) b i))
                          (suffix channel sel b)) (bins_of sel))
  end.

(** ** main, lines 387-456 *)
(** str.replace, from left to right *)
Fixpoint replace_from (skip : nat) (pat by_ : string) (s : string) : string :=
  match s with
  | EmptyString => EmptyString
  | String x r =>
    match skip with
    | S k => replace_from k pat by_ r
    | 0 => if String.prefix pat s then by_ ++ replace_from (String.length pat - 1) pat by_ r else String x (replace_from 0 pat by_ r)
    end
  end.
Definition replace := replace_from 0.
Definition clean (s : string) : string :=
  fold_left (fun s p => replace (fst p) (snd p) s)
    [(" ", "_"); (".", "p"); ("-", "m"); (":", ""); (",", ""); ("slice(None)", ""); ("(", ""); (")", ""); (":", "")] s.
Definition mapping_plots (a : args) (results : list (string * list (string * option chan))) (margs : list string) : result (list plot) :=
  keys <- chosen (map fst results) margs ;;
  ls <- seqr (map (fun kc : string * (string * option chan) =>
          match snd (snd kc) with
          | None => Raise KeyError                                          (* no hist_postfit_inclusive *)
          | Some c => channel_plots a (clean (fst (snd kc) ++ "_" ++ fst kc)) c
          end)
        (flat_map (fun ki => map (pair (fst ki)) (filter (fun c => match a_channels a with None => true | Some l => mem (fst c) l end) (snd ki)))
          (filter (fun ki => mem (fst ki) keys) results))) ;;
  Ok (List.concat ls).
Definition all_plots (a : args) (results : list (string * list (string * option chan))) : result (list plot) :=
  ls <- seqr (map (mapping_plots a results) (a_mapping a)) ;; Ok (List.concat ls).
