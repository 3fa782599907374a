(** The plot of histograms: bin/rabbit_plot_hists.py:310-1730.
    Simplifications: real numbers; a histogram has named axes with sizes and values and variances per multi-index; the
    functions of the plotting libraries are not modelled beyond the values given to them (a ratio is a quotient, the
    cutoffs of divideHists are left out), nor are labels of axes, colours, markers and legends. Labels of variations are
    their names unless given. *)
From Coq Require Import Reals List Arith Bool String.
From Verif Require Writer_Model.
From Verif Require Import RBase PyList PyDict.
Import ListNotations.
Local Open Scope nat_scope.
Local Open Scope string_scope.

Record hst := mkH { h_axes : list (string * nat); h_val : list nat -> R; h_var : list nat -> R }.

(** ** selections, lines 1354-1478 *)
Definition selected (sel : list string) (a : string * nat) : bool := existsb (String.eqb (fst a)) sel.
(** itertools.product *)
Fixpoint product (l : list (list nat)) : list (list nat) :=
  match l with
  | [] => [[]]
  | a :: l => flat_map (fun i => map (cons i) (product l)) a
  end.
Definition bins_of (axes : list (string * nat)) : list (list nat) := product (map (fun a => seq 0 (snd a)) axes).
(** h[{axis: bin, ...}]: the full index from the bins of the selected axes and the index in the others *)
Fixpoint weave (sel : list string) (axes : list (string * nat)) (b i : list nat) : list nat :=
  match axes with
  | [] => []
  | a :: axes =>
    if selected sel a then match b with x :: b => x :: weave sel axes b i | [] => [] end
    else match i with x :: i => x :: weave sel axes b i | [] => [] end
  end.
Definition pick (sel : list string) (b : list nat) (h : hst) : hst :=
  mkH (filter (fun a => negb (selected sel a)) (h_axes h)) (fun i => h_val h (weave sel (h_axes h) b i)) (fun i => h_var h (weave sel (h_axes h) b i)).
(** lines 1421-1426 *)
Definition suffix (channel : string) (axes : list (string * nat)) (b : list nat) : string :=
  channel ++ "_" ++ String.concat "_" (map (fun p : (string * nat) * nat => fst (fst p) ++ "_" ++ Writer_Model.nat_str (snd p)) (combine axes b)).
(** one plot per combination: the name and the histogram; without selected axes a single plot *)
Definition plots (channel : string) (sel : list string) (h : hst) : list (string * hst) :=
  let axes := filter (selected sel) (h_axes h) in
  match axes with
  | [] => [(channel, h)]
  | _ => map (fun b => (suffix channel axes b, pick sel b h)) (bins_of axes)
  end.
(** sums over all bins; the table of yields, lines 334-360 *)
Definition sumL {A} (f : A -> R) (l : list A) : R := fold_right (fun x s => (f x + s)%R) 0%R l.
Definition total (h : hst) : R := sumL (h_val h) (bins_of (h_axes h)).
Definition total_unc (h : hst) : R := sqrt (sumL (h_var h) (bins_of (h_axes h))).

(** ** variations, lines 1270-1352 and 1538-1563 *)
Inductive vsource := VFile (k : nat) (fittype : string) | VNominal (n : string) | VGroup (g : string).
Record vargs := mkA { a_names : option (list string); a_groups : list string; a_labels : option (list string); a_types : list string; a_files : nat }.
Definition names_of (a : vargs) : list string := match a_names a with Some l => l | None => [] end.
Definition variation_names (a : vargs) : list string := (names_of a ++ a_groups a)%list.
Definition var_labels (a : vargs) : result (list string) :=
  match variation_names a with
  | [] => Ok (match a_labels a with Some l => l | None => [] end)
  | ns => match a_labels a with None => Ok ns | Some l => if Nat.eqb (List.length l) (List.length ns) then Ok l else Raise ValueError end
  end.
(** the histograms in hists_up and hists_down; [known]: names in the file, [available]: the grouped impacts *)
Definition variations (a : vargs) (known : string -> bool) (available : option (list string)) : result (list vsource) :=
  let files := match a_names a with
    | None => []
    | Some _ =>
      let types := if Nat.eqb (List.length (a_types a)) 1 then flat_map (fun _ => a_types a) (seq 0 (a_files a)) else a_types a in
      map (fun p => VFile (fst p) (snd p)) (combine (seq 0 (a_files a)) types)
    end in
  let rest := match a_names a with None => [] | Some l => skipn (a_files a) l end in
  if negb (forallb known rest) then Raise KeyError
  else match a_groups a with
  | [] => Ok (files ++ map VNominal rest)%list
  | gs => match available with
          | None => Raise ValueError
          | Some av => if forallb (fun g => existsb (String.eqb g) av) gs then Ok (files ++ map VNominal rest ++ map VGroup gs)%list else Raise ValueError
          end
  end.
(** the upper panel runs over the labels, the lower one over the histograms (and looks up lists with one entry per label) *)
Definition drawn_upper (labels : list string) (vs : list vsource) : result (list (string * vsource)) :=
  if Nat.leb (List.length labels) (List.length vs) then Ok (combine labels vs) else Raise IndexError.
Definition drawn_lower (labels : list string) (vs : list vsource) : result (list (string * vsource)) :=
  if Nat.leb (List.length vs) (List.length labels) then Ok (combine labels vs) else Raise IndexError.
(** up and down *)
Definition from_errors (h : hst) : hst * hst :=
  (mkH (h_axes h) (fun i => h_val h i + sqrt (h_var h i))%R (h_var h), mkH (h_axes h) (fun i => h_val h i - sqrt (h_var h i))%R (h_var h)).
Definition from_group (nominal impact : hst) : hst * hst :=
  (mkH (h_axes nominal) (fun i => h_val nominal i + h_val impact i)%R (h_var nominal), mkH (h_axes nominal) (fun i => h_val nominal i - h_val impact i)%R (h_var nominal)).

(** ** the panels at one bin: data, prediction with standard deviation, a variation and the width of the bin *)
Record bin := mkB { b_data : R; b_nom : R; b_std : R; b_var : R; b_width : R }.
Record popts := mkP { p_diff : bool; p_todata : bool; p_norm : option R; p_scale : R }.
(** --normToData, lines 409-412: [p_norm] is the sum of the data over the sum of the prediction *)
Definition normed (o : popts) (b : bin) : bin :=
  match p_norm o with None => b | Some s => mkB (b_data b) (b_nom b * s)%R (b_std b * s)%R (b_var b) (b_width b) end.
Definition den (o : popts) (b : bin) : R := if p_todata o then b_data b else b_nom b.
Definition op (o : popts) (x d : R) : R := if p_diff o then (x - d)%R else (x / d)%R.
(** lower panel, lines 800-960: the line of the prediction, the data, the band, a variation *)
Definition low_line (o : popts) (b0 : bin) : R := let b := normed o b0 in op o (b_nom b) (den o b).
Definition low_data (o : popts) (b0 : bin) : R := let b := normed o b0 in op o (b_data b) (den o b).
Definition low_band (o : popts) (b0 : bin) : R * R :=
  let b := normed o b0 in
  let nom := (b_nom b / b_width b)%R in let std := (b_std b / b_width b)%R in
  let d := if p_diff o then 1%R else (den o b / b_width b)%R in
  (((nom - std) / d)%R, ((nom + std) / d)%R).
Definition low_var (o : popts) (b0 : bin) : R :=
  let b := normed o b0 in
  op o (if Req_EM_T (p_scale o) 1%R then b_var b else (p_scale o * (b_var b - den o b) + den o b)%R) (den o b).

(** ** chi2, lines 1481-1519 and 1622-1644; a result: postfit_profile (false if missing) and the numbers *)
Record results := mkR { r_profile : bool; r_vals : dict R }.
Definition has (k : string) (d : results) : bool := match dget k (r_vals d) with Some _ => true | None => false end.
Definition get_chi2 (r : results) (none prefit : bool) (kind : string) : result (option R * option R * bool) :=
  if none then Ok (None, None, false)
  else if prefit then
    if String.eqb kind "saturated" then Raise RuntimeError else Ok (dget "chi2_prefit" (r_vals r), dget "ndf_prefit" (r_vals r), false)
  else if String.eqb kind "automatic" || String.eqb kind "saturated" then
    if r_profile r && has "nllvalreduced" r then
      match dget "nllvalreduced" (r_vals r), dget "ndfsat" (r_vals r) with
      | Some n, Some k => Ok (Some (2 * n)%R, Some k, true)
      | _, _ => Raise KeyError
      end
    else if has "chi2_saturated" r then Ok (dget "chi2_saturated" (r_vals r), dget "ndf_saturated" (r_vals r), true)
    else if String.eqb kind "automatic" then Ok (dget "chi2" (r_vals r), dget "ndf" (r_vals r), false)
    else Raise ValueError
  else Ok (dget "chi2" (r_vals r), dget "ndf" (r_vals r), false).
Definition shown_chi2 (fit instance : results) (key : string) (prefit : bool) (kind : option string) : result (option R * option R * bool) :=
  let none := match kind with None => true | Some k => String.eqb k " " || String.eqb k "none" end in
  let k := match kind with None => "" | Some k => k end in
  get_chi2 (if negb prefit && (String.eqb key "BaseMapping" && negb (String.eqb k "linear")) then fit else instance) none prefit k.
(** lines 1604-1612: the mappings that are plotted *)
Definition chosen (keys : list string) (margs : list string) : result (list string) :=
  match margs with
  | [] => Ok keys
  | _ => match filter (String.prefix (String.concat " " margs)) keys with [] => Raise ValueError | l => Ok l end
  end.

(** ** names of the histograms, lines 1226-1260, 1305-1308 *)
Definition data_key (unfolded : bool) (dataHist fittype : string) : string := if unfolded then "hist_" ++ fittype ++ "_inclusive" else "hist_" ++ dataHist.
Definition stat_key (fittype : string) : string := "hist_global_impacts_grouped_" ++ fittype ++ "_inclusive".
Definition inclusive_key (unfolded : bool) (fittype : string) : string := if unfolded then "hist_prefit_inclusive" else "hist_" ++ fittype ++ "_inclusive".
Definition stack_key (fittype : string) : string := "hist_" ++ fittype.
Definition variations_key (correlated : bool) (fittype : string) : string := "hist_" ++ fittype ++ "_inclusive_variations" ++ (if correlated then "_correlated" else "").
Definition groups_key (fittype : string) : string := "hist_" ++ fittype ++ "_inclusive_global_impacts_grouped".
